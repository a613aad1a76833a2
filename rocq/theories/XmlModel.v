(** The XML module, /repo/lube/xmlfile.cpp: the text handed to the parser, the parser's
    callbacks, and the writer.  The parser itself (expat) is not modelled: the callbacks
    are run on a sequence of events. *)
From Coq Require Import ZArith Bool List String.
From Verif Require Import Base StrModel ValModel JsonModel.
Import ListNotations.
Local Open Scope string_scope.
Local Open Scope list_scope.
Local Open Scope Z_scope.

(** /repo/lube/xmlfile.cpp 292-312: the switch on one character. *)
Definition escape_char (c : Z) : str :=
  if c =? 38 then txt "&amp;"
  else if c =? 60 then txt "&lt;"
  else if c =? 62 then txt "&gt;"
  else if c =? 39 then txt "&apos;"
  else if c =? 34 then txt "&quot;"
  else [c].
(** /repo/lube/xmlfile.cpp 288-313: [XMLWriter::escape] on a string. *)
Definition escape_str (s : str) : str := List.concat (map escape_char s).

(** [var::str()] /repo/lube/var.cpp 194-200 streamed as a C string (267, 271, 284): a
    scalar or nil gives the empty string; the bytes of an array that is not a string are
    not modelled. *)
Definition c_str_of (v : val) : outcome str :=
  match v with
  | VArr TChar l => Ok (c_str (map char_of l))
  | VArr _ _ | VMap _ | VView _ _ _ => UB TypePun
  | _ => Ok []
  end.

(** [XMLWriter::escape] on any var: [size()] characters are taken from [str()], which
    for a scalar points at a static NUL; the bytes of other arrays are not modelled. *)
Definition escape (v : val) : outcome str :=
  match v with
  | VArr TChar l => Ok (escape_str (map char_of l))
  | VArr _ [] | VMap [] | VNil => Ok []
  | VArr _ _ | VMap _ | VView _ _ _ => UB TypePun
  | _ => Ok (escape_str [0])
  end.

(** /repo/lube/xmlfile.cpp 268-274: the attributes.  [var::key] throws unless the
    var is a map (/repo/lube/var.cpp 844-849). *)
Fixpoint write_attrs (l : list (val * val)) : outcome str :=
  match l with
  | [] => Ok []
  | (k, v) :: t =>
    let* k := c_str_of k in
    let* v := escape v in
    let* r := write_attrs t in
    Ok ([32] ++ k ++ txt "=""" ++ v ++ [34] ++ r)
  end.
Definition write_attr (a : val) : outcome str :=
  match a with
  | VMap l => write_attrs l
  | _ => if vsize a =? 0 then Ok [] else Throw "var::key(): Not a map"
  end.

(** /repo/lube/xmlfile.cpp 259-285 given the four fields; [body] is the loop over the
    children, run only if the data are defined.  [None] is the result false. *)
Definition write_parts (name attr ty data : val) (body : outcome str) : outcome (option str) :=
  let* ne := vneq ty (vstr (txt "text")) in
  if ne : bool then Ok None else
  let* n := c_str_of name in
  let* a := write_attr attr in
  if negb (vdefined data) then Ok (Some ([60] ++ n ++ a ++ txt " />")) else
  let* b := body in
  Ok (Some ([60] ++ n ++ a ++ [62] ++ b ++ txt "</" ++ n ++ [62])).

(** /repo/lube/xmlfile.cpp 257-286: [XMLWriter::writeElem].  Something of size 4 is an
    array of vars, a map (indexing by int gives the values), or an array of scalars,
    whose element 2 is different from a string.  Views are not modelled. *)
Fixpoint write_elem (v : val) : outcome (option str) :=
  let child x := let* r := write_elem x in
                 match r with Some s => Ok s | None => escape x end in
  let kids := fix kids l := match l with
                            | [] => Ok []
                            | x :: t => let* s := child x in let* r := kids t in Ok (s ++ r)
                            end in
  let values := fix values (l : list (val * val)) :=
                  match l with
                  | [] => Ok []
                  | (_, x) :: t => let* s := child x in let* r := values t in Ok (s ++ r)
                  end in
  match v with
  | VArr TVar [name; attr; ty; data] =>
    write_parts name attr ty data
      (match data with
       | VArr _ l => kids l
       | VMap l => values l
       | VView _ _ _ => UB Uninit
       | x => escape x
       end)
  | VMap [(_, name); (_, attr); (_, ty); (_, data)] =>
    write_parts name attr ty data
      (match data with
       | VArr _ l => kids l
       | VMap l => values l
       | VView _ _ _ => UB Uninit
       | x => escape x
       end)
  | VView _ _ _ => UB Uninit
  | _ => Ok None
  end.

(** /repo/lube/xmlfile.cpp 241-255: [XMLWriter::write], the content of the file. *)
Definition declaration : str := txt "<?xml version=""1.0"" encoding=""UTF-8""?>".
Definition xml_write (v : val) : outcome str :=
  let* r := write_elem v in
  match r with
  | None => Throw "xmlwriter::write(): Top level not element"
  | Some s => Ok (declaration ++ [10] ++ s ++ [10])
  end.

(** /repo/lube/xmlfile.cpp 176-184: the pieces of the file given to [XML_Parse], one
    call for each; the loop is the one of txtfile.cpp ([txt_read]), except that the pieces
    are passed on. *)
Definition xml_feed (content : str) : outcome (list str) := txt_read content.

(** The events of the parser: the callbacks registered at 156-160. *)
Inductive event :=
| EStart (name : str) (atts : list (str * str))
| EEnd (name : str)
| EChars (s : str).

(** An element is the array NAME, ATTR, TYPE, DATA (/repo/lube/data.h 21-26) made by
    [Expat::element] (194-206); TYPE is always "text".  Elements are shared between the
    stack and the DATA array of the parent (both hold the same Heap), so they are
    numbered objects in a store; DATA is nil when [x_data] is []. *)
Inductive item := IElem (id : nat) | IText (s : str).
Record xelem := { x_name : val; x_attr : val; x_data : list item }.
Definition blank : xelem := {| x_name := VNil; x_attr := VNil; x_data := [] |}.

(** Members mStack (top first; [None] while it is nil, i.e. before the first push;
    popping leaves an empty array, which is defined) and mVar. *)
Record xstate := { xs_store : list xelem; xs_stack : option (list nat); xs_root : option nat }.
Definition xs_init : xstate := {| xs_store := []; xs_stack := None; xs_root := None |}.

(** [mStack.top()\[DATA\].push(x)], 213 and 237. *)
Definition push_data (st : list xelem) (id : nat) (x : item) : list xelem :=
  match nth_error st id with
  | None => st
  | Some e => set_nth st id {| x_name := x_name e; x_attr := x_attr e; x_data := x_data e ++ [x] |}
  end.

(** /repo/lube/xmlfile.cpp 209-223: [Expat::startElementHandler].  With an empty stack
    (an element after the document element, which expat refuses) [top()] is [at(-1)], the
    stack array itself; this is not modelled. *)
Definition start_element (s : xstate) (name : str) (atts : list (str * str)) : outcome xstate :=
  let id := List.length (xs_store s) in
  let st := xs_store s ++ [blank] in
  let* (st, stack, root) :=
    (match xs_stack s with
     | Some (top :: rest) => Ok (push_data st top (IElem id), id :: top :: rest, xs_root s)
     | Some [] => UB Uninit
     | None => Ok (st, [id], Some id)
     end) in
  let* attr := assigns (VNil, VNil) VNil (map (fun p => (vstr (fst p), vstr (snd p))) atts) in
  match nth_error st id with
  | None => UB OutOfBounds
  | Some e => Ok {| xs_store := set_nth st id {| x_name := vstr name; x_attr := attr; x_data := x_data e |};
                    xs_stack := Some stack; xs_root := root |}
  end.

(** /repo/lube/xmlfile.cpp 226-231: [Expat::endElementHandler].  [top()] of a nil stack
    throws in [at] (/repo/lube/var.cpp 812-813). *)
Definition end_element (s : xstate) (name : str) : outcome xstate :=
  match xs_stack s with
  | None => Throw "var::at(): uninitialised"
  | Some [] => UB Uninit
  | Some (top :: rest) =>
    match nth_error (xs_store s) top with
    | None => UB OutOfBounds
    | Some e =>
      let* ne := vneq (x_name e) (vstr name) in
      if ne : bool then Throw "Expat::endElementHandler: malformed xml"
      else Ok {| xs_store := xs_store s; xs_stack := Some rest; xs_root := xs_root s |}
    end
  end.

(** /repo/lube/xmlfile.cpp 234-238: [Expat::characterDataHandler]. *)
Definition char_data (s : xstate) (t : str) : outcome xstate :=
  match xs_stack s with
  | None => Throw "var::at(): uninitialised"
  | Some [] => UB Uninit
  | Some (top :: _) =>
    Ok {| xs_store := push_data (xs_store s) top (IText t); xs_stack := xs_stack s; xs_root := xs_root s |}
  end.

Definition handle (s : xstate) (e : event) : outcome xstate :=
  match e with
  | EStart n a => start_element s n a
  | EEnd n => end_element s n
  | EChars t => char_data s t
  end.
Fixpoint handles (s : xstate) (l : list event) : outcome xstate :=
  match l with
  | [] => Ok s
  | e :: t => let* s := handle s e in handles s t
  end.

(** /repo/lube/xmlfile.cpp 176-190: [Expat::parse] once the parser accepted all pieces
    and sent these events. *)
Definition xml_parse (l : list event) : outcome (list xelem * option nat) :=
  let* s := handles xs_init l in
  match xs_stack s with
  | Some (_ :: _) => Throw "xmlfile::parse(): Short file?"
  | _ => Ok (xs_store s, xs_root s)
  end.
