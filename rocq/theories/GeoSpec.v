(** Specifications for views and array functions, independent of the model's helpers. *)
From Coq Require Import ZArith List.
From Verif Require Import Base GeoModel.
Import ListNotations.
Local Open Scope Z_scope.

(** Number of cells of a shape. *)
Fixpoint prod (sh : list Z) : Z := match sh with [] => 1 | d :: t => d * prod t end.
(** Index tuples of a shape and their place in row order. *)
Definition in_range (sh idx : list Z) : Prop := Forall2 (fun d i => 0 <= i < d) sh idx.
Fixpoint place (sh idx : list Z) : Z :=
  match sh, idx with
  | _ :: ds, i :: is => i * prod ds + place ds is
  | _, _ => 0
  end.
Definition positive (sh : list Z) : Prop := Forall (fun d => 1 <= d) sh.

(** The content of cell [c] of array [a], if there is one. *)
Definition cell {A} (m : mem A) (a : nat) (c : Z) : option A :=
  if c <? 0 then None else nth_error (nth a m []) (Z.to_nat c).
(** What the element expression v(i1, ..., in) shows. *)
Definition shown {A} (m : mem A) (o : opd) (idx : list Z) : option A :=
  match paren A m o idx with Ok c => cell m (o_arr o) c | _ => None end.

(** The descriptor a view should have: offset, then each dimension with the number of cells
    one step along it skips. *)
Fixpoint dims (sh : list Z) : list Z := match sh with [] => [] | d :: t => d :: prod t :: dims t end.
(** [o] is an array or view of positive shape [sh] inside its array. *)
Definition fits {A} (m : mem A) (o : opd) (sh : list Z) (off : Z) : Prop :=
  sh <> [] /\ positive sh /\ 0 <= off /\
  off + prod sh <= Z.of_nat (length (nth (o_arr o) m [])) <= INT_MAX /\
  ((o_ip o = None /\ off = 0 /\ sh = [Z.of_nat (length (nth (o_arr o) m []))]) \/ o_ip o = Some (off :: dims sh)).
(** Nothing but [n] cells of array [a] from [c] on may differ. *)
Definition only {A} (m m' : mem A) (a : nat) (c n : Z) : Prop :=
  forall b j, (b <> a \/ j < c \/ c + n <= j) -> cell m' b j = cell m b j.

(** * Polynomials *)
(** A polynomial is its coefficients: [p k] belongs to x^k.  The product is the usual
    convolution. *)
Section Poly.
Variable A : Type.
Variables (zero one : A) (add mul : A -> A -> A) (opp : A -> A).
(** g 0 + ... + g n *)
Fixpoint sum_to (n : nat) (g : nat -> A) : A := match n with O => g O | S n => add (sum_to n g) (g (S n)) end.
Definition pmul (p q : nat -> A) (k : nat) : A := sum_to k (fun i => mul (p i) (q (k - i)%nat)).
(** The polynomials 1 and x - r. *)
Definition pone (k : nat) : A := match k with O => one | _ => zero end.
Definition minus_root (r : A) (k : nat) : A := match k with O => opp r | 1%nat => one | _ => zero end.
(** (x - r1) (x - r2) ... (x - rn) *)
Definition from_roots (rs : list A) : nat -> A := fold_left (fun p r => pmul p (minus_root r)) rs pone.
End Poly.

(** The values of a row of [n] elements at the leading indexes [idx], if all are there. *)
Definition row_is {A} (m : mem A) (o : opd) (idx : list Z) (l : list A) : Prop :=
  forall k, (k < length l)%nat -> shown m o (idx ++ [Z.of_nat k]) = nth_error l k.
(** A binary function of values that may be missing. *)
Definition lift2 {A} (f : A -> A -> A) (x y : option A) : option A :=
  match x, y with Some x, Some y => Some (f x y) | _, _ => None end.
(** Arrays that existed before are as they were. *)
Definition kept {A} (m m' : mem A) : Prop := forall b j, (b < length m)%nat -> cell m' b j = cell m b j.
(** Two operands share no cell, or are the same cells. *)
Definition apart (l x : opd) (offl offx nl nx : Z) : Prop :=
  o_arr l <> o_arr x \/ offx + nx <= offl \/ offl + nl <= offx \/ (offl = offx /\ nl = nx).
