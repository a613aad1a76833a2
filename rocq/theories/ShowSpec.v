(** What the printed text of arrays looks like. *)
From Coq Require Import ZArith List String.
From Verif Require Import Base StrModel GeoModel GeoSpec JsonModel ShowModel.
Import ListNotations.
Local Open Scope Z_scope.
Local Open Scope list_scope.

(** Texts with [s] between them. *)
Fixpoint sep (s : str) (l : list str) : str :=
  match l with
  | [] => []
  | x :: t => match t with [] => x | _ :: _ => x ++ s ++ sep s t end
  end.
(** A matrix in brackets: a row on a line, everything separated by commas. *)
Definition matrix_text (ind : nat) (rows : list (list str)) : str :=
  [91; 10] ++ sep [44; 10] (map (fun r => spaces (ind + 2) ++ sep (txt ", ") r) rows) ++ [10] ++ spaces ind ++ [93].
(** An array of more than two dimensions: its shape, then its matrices. *)
Definition tensor_text (ind : nat) (sh : list Z) (mats : list (list (list str))) : str :=
  sep (txt "x") (map dec sh) ++ txt " tensor:" ++ [10] ++ sep [10] (map (matrix_text ind) mats).
(** The rows of the matrix at the leading indexes [ir]. *)
Definition rows_are {A} (m : mem A) (o : opd) (ir : list Z) (R C : Z) (rows : list (list A)) : Prop :=
  Z.of_nat (List.length rows) = R /\
  forall j row, nth_error rows j = Some row -> Z.of_nat (List.length row) = C /\ row_is m o (ir ++ [Z.of_nat j]) row.

(** * gnuplot *)
(** Numbers on a line each, then a line with an e. *)
Definition vector_lines (l : list str) : str := List.concat (map (fun x => x ++ [10]) l) ++ [101; 10].
(** A line for each column, the numbers after a space each, an empty line, a line with an e. *)
Definition matrix_lines (cols : list (list str)) : str :=
  List.concat (map (fun c => List.concat (map (fun x => 32 :: x) c) ++ [10]) cols) ++ [10; 101; 10].
Inductive says {A} (fmt : A -> str) (m : mem A) : line -> str -> Prop :=
| says_text : forall s, ~ In 0 s -> says fmt m (LText s) (s ++ [10])
| says_char : forall c, says fmt m (LChar c) [10]
| says_vector : forall o n off xs, fits m o [n] off -> Z.of_nat (List.length xs) = n -> row_is m o [] xs ->
    says fmt m (LNums o) (vector_lines (map fmt xs))
| says_matrix : forall o R C off cols, fits m o [R; C] off -> Z.of_nat (List.length cols) = C ->
    (forall j col, nth_error cols j = Some col -> Z.of_nat (List.length col) = R /\
       forall i, (i < List.length col)%nat -> shown m o [Z.of_nat i; Z.of_nat j] = nth_error col i) ->
    says fmt m (LNums o) (matrix_lines (map (map fmt) cols)).
(** The lines that choose the file. *)
Definition head_lines (iFile : option str) : str :=
  match iFile with
  | Some f => txt "set term post eps" ++ [10] ++ txt "set output " ++ [34] ++ f ++ [34; 10]
  | None => []
  end.
(** What makes write give up. *)
Inductive refused {A} (m : mem A) : line -> string -> Prop :=
| refused_nil : refused m LNil "var::atype(): Undefined"
| refused_other : refused m LOther "gnuplot::write(): Unknown data type"
| refused_dim : forall o sh off, fits m o sh off -> (2 < List.length sh)%nat -> refused m (LNums o) "gnuplot::write(): Unknown dimension".
