(** /repo/lube/qwt.cpp: what is given to Qwt to be plotted.

    Qwt is taken to copy the given numbers of doubles from the given addresses, as
    QwtPlotCurve::setSamples does; how it draws them, colours, fonts and events are not modelled.
    A window holds at most one plot: setting another one as the central widget deletes the one
    there was. *)
From Coq Require Import ZArith Bool List.
From Verif Require Import Base StrModel GeoModel.
Import ListNotations.
Local Open Scope Z_scope.

Section Qwt.
Variable A : Type.

(** The values given: an array of doubles or a view of one, a number that is a double, nothing
    (nil), or something else with [n] elements. *)
Inductive arg := Doubles (o : opd) | Double (x : A) | Undefined | Mistyped (n : Z).
(** [size()], /repo/lube/var.cpp 610-617. *)
Definition arg_size (m : mem A) (x : arg) : outcome Z :=
  match x with Doubles o => size A m o | Double _ => Ok 1 | Undefined => Ok 0 | Mistyped n => Ok n end.
(** Reading [n] doubles from [ptr<double>()], /repo/lube/var.cpp 165-176 and heap.h 96-98, 204-206,
    none of which looks at the type. *)
Definition samples (m : mem A) (x : arg) (n : nat) : outcome (list A) :=
  match n with
  | O => Ok []
  | _ => match x with
         | Doubles o => rd_row A m (o_arr o) (offset o) n
         | Double x => if Nat.eqb n 1 then Ok [x] else UB OutOfBounds
         | Undefined => UB NullDeref
         | Mistyped _ => UB TypePun
         end
  end.
(** A text given as a label: [str()], /repo/lube/var.cpp 194-200, is the empty string for anything
    that is not on the heap. *)
Inductive label := Text (s : str) | Scalar.
Definition label_str (l : label) : str := match l with Text s => c_str s | Scalar => [] end.

(** A curve and a plot with the titles of its axes. *)
Record drawn := mkcurve { c_title : str; c_points : list (A * A) }.
Record plotted := mkplot { p_x : str; p_y : str; p_curves : list drawn }.
(** The member [mPlot], which the constructor (47-52) leaves uninitialised. *)
Definition window := option plotted.
Definition new_window : window := None.

(** qwt.cpp 70-84. *)
Definition plot (w : window) : outcome window := Ok (Some (mkplot [] [] [])).
(** qwt.cpp 54-62.  [std::min] of the two sizes. *)
Definition curve (m : mem A) (x y : arg) (title : label) (w : window) : outcome window :=
  match w with
  | None => UB Uninit
  | Some p =>
    let* nx := arg_size m x in
    let* ny := arg_size m y in
    let n := Z.to_nat (Z.min nx ny) in
    let* xs := samples m x n in
    let* ys := samples m y n in
    Ok (Some (mkplot (p_x p) (p_y p) (p_curves p ++ [mkcurve (label_str title) (combine xs ys)])))
  end.
(** qwt.cpp 64-68. *)
Definition axes (x y : label) (w : window) : outcome window :=
  match w with
  | None => UB Uninit
  | Some p => Ok (Some (mkplot (label_str x) (label_str y) (p_curves p)))
  end.
End Qwt.
