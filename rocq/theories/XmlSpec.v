(** Specification of XML documents, independent of the reader and writer. *)
From Coq Require Import ZArith Bool List String Permutation.
From Verif Require Import Base StrModel StrSpec ValModel ValSpec JsonModel XmlModel.
Import ListNotations.
Local Open Scope string_scope.
Local Open Scope list_scope.
Local Open Scope Z_scope.

(** A document: elements with attributes and children, and character data. *)
Inductive node :=
| Text (s : str)
| Elem (name : str) (atts : list (str * str)) (kids : list node).

(** Its events in document order. *)
Fixpoint events (n : node) : list event :=
  match n with
  | Text s => [EChars s]
  | Elem name atts kids =>
    EStart name atts ::
    (fix all l := match l with [] => [] | k :: t => events k ++ all t end) kids ++ [EEnd name]
  end.
Definition is_elem (n : node) : Prop := match n with Elem _ _ _ => True | Text _ => False end.

(** Attribute names are C strings, and different from each other (XML requires it). *)
Inductive atts_ok : node -> Prop :=
| ao_text s : atts_ok (Text s)
| ao_elem n a k : Forall (fun p => chars (fst p) /\ nul_free (fst p)) a -> NoDup (map fst a) -> Forall atts_ok k ->
    atts_ok (Elem n a k).

(** A var holds the attributes: nil for none, otherwise a sorted map with exactly them. *)
Definition attrs_held (v : val) (a : list (str * str)) : Prop :=
  match a with
  | [] => v = VNil
  | _ => exists l, v = VMap l /\ sorted_map l /\
           Permutation l (map (fun p => (vstr (fst p), vstr (snd p))) a)
  end.

(** An item in a store represents a document node. *)
Inductive holds (st : list xelem) : item -> node -> Prop :=
| h_text s : holds st (IText s) (Text s)
| h_elem id e n a k : nth_error st id = Some e -> x_name e = vstr n -> attrs_held (x_attr e) a ->
    Forall2 (holds st) (x_data e) k -> holds st (IElem id) (Elem n a k).

(** Entities: the replacement text after '&' up to and including ';'. *)
Definition entities : list (str * Z) :=
  [(txt "&amp;", 38); (txt "&lt;", 60); (txt "&gt;", 62); (txt "&apos;", 39); (txt "&quot;", 34)].

(** A text without markup: plain characters and entities; and what it denotes. *)
Inductive denotes : str -> str -> Prop :=
| d_nil : denotes [] []
| d_plain c s t : ~ In c [38; 60; 62; 39; 34] -> denotes s t -> denotes (c :: s) (c :: t)
| d_entity e c s t : In (e, c) entities -> denotes s t -> denotes (e ++ s) (c :: t).

(** The writer's input for a document: an element is the array NAME, ATTR, "text", DATA,
    with nil for no attributes and for no data. *)
Fixpoint as_val (n : node) : val :=
  match n with
  | Text s => vstr s
  | Elem name atts kids =>
    VArr TVar [vstr name;
               match atts with [] => VNil | _ => VMap (map (fun p => (vstr (fst p), vstr (snd p))) atts) end;
               vstr (txt "text");
               match kids with [] => VNil | _ => VArr TVar (map as_val kids) end]
  end.

(** Markup grammar (the part of XML 1.0 without comments, instructions, CDATA and
    character references).  Names: no white space, quote, '=', '/', '<', '>', '&', NUL. *)
Definition name_char (c : Z) : Prop := ~ In c [0; 9; 10; 13; 32; 34; 38; 39; 47; 60; 61; 62].
Definition is_name (s : str) : Prop := s <> [] /\ Forall name_char s.
(** attribute: space name '=' '"' value '"' *)
Inductive attrs_text : str -> list (str * str) -> Prop :=
| at_nil : attrs_text [] []
| at_cons k v w r a : is_name k -> denotes w v -> attrs_text r a ->
    attrs_text ([32] ++ k ++ [61; 34] ++ w ++ [34] ++ r) ((k, v) :: a).
Inductive elem_text : str -> node -> Prop :=
| et_empty n w a : is_name n -> attrs_text w a ->
    elem_text ([60] ++ n ++ w ++ [32; 47; 62]) (Elem n a [])
| et_full n w a b k : is_name n -> attrs_text w a -> content_text b k ->
    elem_text ([60] ++ n ++ w ++ [62] ++ b ++ [60; 47] ++ n ++ [62]) (Elem n a k)
with content_text : str -> list node -> Prop :=
| ct_nil : content_text [] []
| ct_text w s r k : denotes w s -> content_text r k -> content_text (w ++ r) (Text s :: k)
| ct_elem w e r k : elem_text w e -> content_text r k -> content_text (w ++ r) (e :: k).
(** Names of a document are names. *)
Inductive names_ok : node -> Prop :=
| no_text s : names_ok (Text s)
| no_elem n a k : is_name n -> Forall (fun p => is_name (fst p)) a -> Forall names_ok k ->
    names_ok (Elem n a k).
