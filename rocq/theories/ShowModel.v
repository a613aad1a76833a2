(** Model of the printing of views (json.cpp 372-434) and of what is sent to gnuplot
    (gnuplot.cpp).  Elements are printed by an arbitrary function. *)
From Coq Require Import ZArith Bool List String.
From Verif Require Import Base StrModel GeoModel ValModel JsonModel.
Import ListNotations.
Local Open Scope Z_scope.
Local Open Scope list_scope.

Section Show.
Variable A : Type.
Variable fmt : A -> str.

(** A counting loop that prints. *)
Fixpoint cat_loop (n : nat) (i : Z) (body : Z -> outcome str) : outcome str :=
  match n with
  | O => Ok []
  | S n => let* a := body i in let* b := cat_loop n (i + 1) body in Ok (a ++ b)
  end.
Definition cat_to (n : Z) (body : Z -> outcome str) : outcome str := cat_loop (Z.to_nat n) 0 body.
(** [stream << iVar[i]]: the reference goes through the view (heap.h 204-214). *)
Definition print_at (m : mem A) (o : opd) (i : Z) : outcome str :=
  let* x := rd A m (o_arr o) (offset o + i) in Ok (fmt x).

(** /repo/lube/json.cpp 372-434: [JSON::formatView]. *)
Definition formatView (m : mem A) (o : opd) (iIndent : nat) : outcome str :=
  let nDim := dim o in
  let* head :=
    if 2 <? nDim then
      let* t := cat_to nDim (fun i => let* s := shape A m o i in
                                      Ok (dec s ++ if i =? nDim - 1 then [] else txt "x")) in
      Ok (t ++ txt " tensor:" ++ [10])
    else Ok [] in
  if nDim <? 2 then
    let* size := size A m o in
    let* t := cat_to size (fun i => let* x := print_at m o i in
                                    Ok (x ++ if i =? size - 1 then [] else txt ", ")) in
    Ok (head ++ [91] ++ t ++ [93])
  else
    let* nMats := fold_left (fun p i => let* p := p in let* s := shape A m o (Z.of_nat i) in imul p s)
                            (seq 0 (Z.to_nat (nDim - 2))) (Ok 1) in
    let* nRows := shape A m o (nDim - 2) in
    let* nCols := shape A m o (nDim - 1) in
    let* t := cat_to nMats (fun k =>
      let* t := cat_to nRows (fun j =>
        let* t := cat_to nCols (fun i =>
          let* a := imul k nRows in let* a := imul a nCols in
          let* b := imul j nCols in let* a := iadd a b in let* a := iadd a i in
          let* x := print_at m o a in
          Ok (x ++ (if negb (j =? nRows - 1) || negb (i =? nCols - 1) then txt "," else []) ++
              (if i =? nCols - 1 then [] else txt " "))) in
        Ok (spaces (iIndent + 2) ++ t ++ [10])) in
      Ok ([91; 10] ++ t ++ spaces iIndent ++ [93] ++ if k =? nMats - 1 then [] else [10])) in
    Ok (head ++ t).

(** * gnuplot *)
(** What the elements of the var given to write can be, told apart by atype() (var.cpp 634-643):
    a string, a character, numbers (of one number an array of one cell), nil, anything else. *)
Inductive line := LText (s : str) | LChar (c : Z) | LNums (o : opd) | LNil | LOther.
(** The text that has gone to gnuplot, and how the call ends. *)
Definition sent : Type := str * outcome unit.
(** /repo/lube/gnuplot.cpp 53-59: [puts]; writing to the pipe is taken to succeed. *)
Definition puts (s : str) : str := c_str s ++ [10].
Definition and_then (a : sent) (b : sent) : sent :=
  match snd a with Ok _ => (fst a ++ fst b, snd b) | _ => a end.
Definition send (o : outcome str) : sent :=
  match o with Ok s => (s, Ok tt) | Throw t => ([], Throw t) | UB k => ([], UB k) | Fuel => ([], Fuel) end.
(** /repo/lube/gnuplot.cpp 101-106: the numbers of a vector, each of them a line. *)
Definition plot_vector (m : mem A) (o : opd) : outcome str :=
  let* n := size A m o in
  cat_to n (fun j => let* x := print_at m o j in Ok (puts x)).
(** /repo/lube/gnuplot.cpp 112-118: the text of a matrix. *)
Definition plot_matrix (m : mem A) (o : opd) : outcome str :=
  let* cols := shape A m o 1 in
  cat_to cols (fun j =>
    let* rows := shape A m o 0 in
    let* t := cat_to rows (fun i =>
      let* c := paren A m o [i; j] in
      let* x := rd A m (o_arr o) c in Ok (txt " " ++ fmt x)) in
    Ok (t ++ [10])).
(** /repo/lube/gnuplot.cpp 85-129: one turn of the loop of [write].  A character has no array, so
    that its str() (var.cpp 194-200) is empty. *)
Definition plot_line (m : mem A) (l : line) : sent :=
  match l with
  | LText s => (puts s, Ok tt)
  | LChar _ => (puts [], Ok tt)
  | LNums o =>
    if dim o <? 2 then and_then (send (plot_vector m o)) (puts (txt "e"), Ok tt)
    else if dim o =? 2 then
      and_then (send (let* t := plot_matrix m o in Ok (puts t))) (puts (txt "e"), Ok tt)
    else ([], Throw "gnuplot::write(): Unknown dimension")
  | LNil => ([], Throw "var::atype(): Undefined")
  | LOther => ([], Throw "gnuplot::write(): Unknown data type")
  end.
(** /repo/lube/gnuplot.cpp 69-131: [write]; the file name is printed in quotes (json.cpp 295-300). *)
Definition plot (m : mem A) (iFile : option str) (lines : list line) : sent :=
  let head := match iFile with
              | Some f => puts (txt "set term post eps") ++ puts (txt "set output " ++ [34] ++ c_str f ++ [34])
              | None => []
              end in
  fold_left (fun s l => and_then s (plot_line m l)) lines (head, Ok tt).
End Show.
