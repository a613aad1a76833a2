(** Specifications for the string properties, independent of the model's helpers. *)
From Coq Require Import ZArith Bool List.
Import ListNotations.
Local Open Scope Z_scope.

(** Strings without NUL: exactly those a C string can hold. *)
Definition nul_free (s : list Z) : Prop := ~ In 0 s.

Definition white (c : Z) : Prop := In c [32; 9; 10; 11; 12; 13].
Definition all_white (s : list Z) : Prop := forall c, In c s -> white c.
Definition no_white (s : list Z) : Prop := forall c, In c s -> ~ white c.

(** Pieces glued with a separator. *)
Fixpoint glue (sep : list Z) (l : list (list Z)) : list Z :=
  match l with
  | [] => []
  | [x] => x
  | x :: t => x ++ sep ++ glue sep t
  end.

Definition occurs (sep s : list Z) : Prop := exists pre post, s = pre ++ sep ++ post.

(** [p] ends where the separator occurs for the first time in [p ++ sep ++ ...]. *)
Definition leftmost (sep p : list Z) : Prop :=
  forall pre post, p ++ sep = pre ++ sep ++ post -> post = [].

(** [words s ws]: [ws] are the maximal runs of non-white characters of [s], in order. *)
Inductive words : list Z -> list (list Z) -> Prop :=
| words_none : forall s, all_white s -> words s []
| words_one : forall a w rest ws,
    all_white a -> w <> [] -> no_white w ->
    (rest = [] \/ exists c t, rest = c :: t /\ white c) ->
    words rest ws -> words (a ++ w ++ rest) (w :: ws).

(** UTF-8 (RFC 3629 bit patterns), bytes as signed chars. *)
Definition schar (b : Z) : Z := if b <? 128 then b else b - 256.
Definition utf8_enc (cp : Z) : list Z :=
  if cp <? 128 then [cp]
  else if cp <? 2048 then [schar (192 + cp / 64); schar (128 + cp mod 64)]
  else if cp <? 65536 then [schar (224 + cp / 4096); schar (128 + (cp / 64) mod 64); schar (128 + cp mod 64)]
  else [schar (240 + cp / 262144); schar (128 + (cp / 4096) mod 64);
        schar (128 + (cp / 64) mod 64); schar (128 + cp mod 64)].

Definition byte (c : Z) : Z := if c <? 0 then c + 256 else c.
Definition is_cont (c : Z) : Prop := 128 <= byte c < 192.
(** One code point: lead byte and the right number of continuation bytes. *)
Inductive utf8_seq : list Z -> Prop :=
| seq1 : forall a, 0 <= byte a < 128 -> utf8_seq [a]
| seq2 : forall a b, 192 <= byte a < 224 -> is_cont b -> utf8_seq [a; b]
| seq3 : forall a b c, 224 <= byte a < 240 -> is_cont b -> is_cont c -> utf8_seq [a; b; c]
| seq4 : forall a b c d, 240 <= byte a < 248 -> is_cont b -> is_cont c -> is_cont d -> utf8_seq [a; b; c; d].
(** [utf8_cut s n]: [s] is a concatenation of [n] such sequences. *)
Inductive utf8_cut : list Z -> Z -> Prop :=
| cut_nil : utf8_cut [] 0
| cut_cons : forall q s n, utf8_seq q -> utf8_cut s n -> utf8_cut (q ++ s) (n + 1).

Definition chars (s : list Z) : Prop := forall c, In c s -> -128 <= c <= 127.

(** A file of newline-terminated lines. *)
Definition lines (l : list (list Z)) : list Z := concat (map (fun x => x ++ [10]) l).
