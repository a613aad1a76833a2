(** What roots of a polynomial and eigenvalues of a matrix are, in exact arithmetic. *)
From Coq Require Import List Ring_theory Field_theory.
Import ListNotations.
Local Notation length := List.length.

(** [F] are the real numbers of the coefficients, [K] the complex numbers, [phi] takes a real
    number as a complex one. *)
Section Spec.
Context {F K : Type}.
Variables (f0 f1 : F) (fadd fmul fsub fdiv : F -> F -> F) (fopp finv : F -> F).
Variables (k0 k1 : K) (kadd kmul ksub : K -> K -> K) (kopp : K -> K) (phi : F -> K).

(** A field in a ring without zero divisors. *)
Record exact : Prop := {
  ex_field : field_theory f0 f1 fadd fmul fsub fopp fdiv finv (@eq F);
  ex_ring : ring_theory k0 k1 kadd kmul ksub kopp (@eq K);
  ex_domain : forall x y, kmul x y = k0 -> x = k0 \/ y = k0;
  ex_nontrivial : k1 <> k0;
  ex_one : phi f1 = k1;
  ex_zero : phi f0 = k0;
  ex_mul : forall x y, phi (fmul x y) = kmul (phi x) (phi y);
  ex_opp : forall x, phi (fopp x) = kopp (phi x) }.

Fixpoint sum (n : nat) (g : nat -> K) : K := match n with O => k0 | S n => kadd (sum n g) (g n) end.
Fixpoint pow (x : K) (n : nat) : K := match n with O => k1 | S n => kmul x (pow x n) end.
(** The polynomial with coefficients [c], that of the highest power first. *)
Fixpoint poly (c : list F) (x : K) : K :=
  match c with
  | [] => k0
  | a :: c => kadd (kmul (phi a) (pow x (length c))) (poly c x)
  end.
(** [x] is an eigenvalue of the [n] by [n] matrix whose columns are one after the other in
    [a]: [A v = x v] for a vector [v] that is not zero. *)
Definition eigenvalue (n : nat) (a : list F) (x : K) : Prop :=
  exists v : nat -> K, (exists i, i < n /\ v i <> k0) /\
    forall i, i < n -> sum n (fun j => kmul (phi (nth (i + j * n) a f0)) (v j)) = kmul x (v i).
End Spec.
