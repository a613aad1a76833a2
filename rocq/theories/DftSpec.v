(** What is meant to come of a Fourier transform: how many values of a row it takes and gives. *)
From Coq Require Import ZArith List.
From Verif Require Import Base GeoModel GeoSpec DftModel.
Local Open Scope Z_scope.

(** A transform of real values of even size gives, or takes back, half as many complex ones and
    one more; one of complex values gives as many as it takes. *)
Inductive sizes : dtype -> bool -> Z -> Z -> Z -> Prop :=
| real_forward : forall h, 1 <= h -> sizes DFloat false (2 * h) (2 * h) (h + 1)
| real_inverse : forall h, 1 <= h -> sizes DFloat true (2 * h) (h + 1) (2 * h)
| complex_either : forall inv n, 1 <= n -> sizes DCFloat inv n n n.
(** The types of what goes in and of what comes out. *)
Definition goes_in (ty : dtype) (inverse : bool) : dtype := if inverse then DCFloat else ty.
Definition comes_out (ty : dtype) (inverse : bool) : dtype := if inverse then ty else DCFloat.
(** The values from a cell on. *)
Definition cells_are {A} (m : mem A) (a : nat) (p : Z) (l : list A) : Prop :=
  forall k, (k < length l)%nat -> cell m a (p + Z.of_nat k) = nth_error l k.
(** The inverse is divided by the number of values. *)
Definition scaled {A} (inverse : bool) (div : A -> A -> A) (n : A) (l : list A) : list A :=
  if inverse then map (fun x => div x n) l else l.
