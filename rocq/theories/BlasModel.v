(** /repo/lube/clapack.cpp: the calls of BLAS.

    BLAS is written in Fortran: matrices are stored column after column, element (i, j) of a
    matrix with leading dimension [ld] being cell [i + j * ld] (from 0).  The routines are
    those of the reference BLAS of netlib.org; they check their arguments and call XERBLA,
    which stops the program.  [F] is the element type with its operations. *)
From Coq Require Import ZArith Bool List String.
From Verif Require Import Base StrModel RootsModel.
Import ListNotations.
Local Open Scope nat_scope.
Local Open Scope out_scope.
Local Notation length := List.length.

Section Blas.
Context {F : Type}.
Variables (zero one : F) (add mul : F -> F -> F) (eqb : F -> F -> bool).

(** Replacing a cell. *)
Definition cell (a : list F) (p : nat) (f : F -> F) : outcome (list F) := let* x := rd a p in wr a p (f x).
Definition xerbla : string := "XERBLA".

(** xGEMM with TRANSA = TRANSB = 'N': [C := alpha A B + beta C], A of [m] rows and [k] columns, B of [k]
    rows and [n] columns. *)
Definition xgemm (m n k : nat) (alpha : F) (a : list F) (lda : nat) (b : list F) (ldb : nat) (beta : F) (c : list F) (ldc : nat) : outcome (list F) :=
  if Nat.ltb lda (Nat.max 1 m) || Nat.ltb ldb (Nat.max 1 k) || Nat.ltb ldc (Nat.max 1 m) then Throw xerbla else
  if Nat.eqb m 0 || Nat.eqb n 0 || ((eqb alpha zero || Nat.eqb k 0) && eqb beta one) then Ok c else
  let scale (j : nat) (c : list F) :=
    if eqb beta zero then count m 0 (fun i c => cell c (i + j * ldc) (fun _ => zero)) c
    else if eqb beta one then Ok c
    else count m 0 (fun i c => cell c (i + j * ldc) (fun x => mul beta x)) c in
  if eqb alpha zero then count n 0 scale c else
  count n 0 (fun j c =>
    let* c := scale j c in
    count k 0 (fun l c =>
      let* y := rd b (l + j * ldb) in
      let temp := mul alpha y in
      count m 0 (fun i c =>
        let* x := rd a (i + l * lda) in
        cell c (i + j * ldc) (fun z => add z (mul temp x))) c) c) c.
(** [blas::gemm], clapack.cpp 208-231. *)
Definition gemm (iM iN iK : nat) (alpha : F) (a b : list F) (beta : F) (c : list F) : outcome (list F) :=
  xgemm iN iM iK alpha b iN a iK beta c iN.

(** xTBMV with UPLO = 'L', TRANS = 'T', DIAG = 'N' and increment 1: [x := A' x] for a lower triangular
    band matrix with [k] diagonals below the main one.  [blas::tbmv] (clapack.cpp 172-182) gives the leading
    dimension 1, which must be at least [k + 1], so that only the main diagonal is left. *)
Definition tbmv (iN iK : nat) (a x : list F) : outcome (list F) :=
  if Nat.ltb 1 (iK + 1) then Throw xerbla else
  count iN 0 (fun j x => let* d := rd a j in cell x j (fun t => mul t d)) x.
(** xSBMV with UPLO = 'L' and increments 1: [y := alpha A x + beta y] for a symmetric band matrix;
    [blas::sbmv], clapack.cpp 184-206, likewise.  [temp2], the part left of the diagonal, is zero. *)
Definition sbmv (iN iK : nat) (alpha : F) (a x : list F) (beta : F) (y : list F) : outcome (list F) :=
  if Nat.ltb 1 (iK + 1) then Throw xerbla else
  if Nat.eqb iN 0 || (eqb alpha zero && eqb beta one) then Ok y else
  let* y := (if eqb beta one then Ok y
             else if eqb beta zero then count iN 0 (fun i y => cell y i (fun _ => zero)) y
             else count iN 0 (fun i y => cell y i (fun z => mul beta z)) y) in
  if eqb alpha zero then Ok y else
  count iN 0 (fun j y =>
    let* u := rd x j in
    let* d := rd a j in
    cell y j (fun z => add (add z (mul (mul alpha u) d)) (mul alpha zero))) y.
(** xAXPY and xSCAL with increments 1; clapack.cpp 70-104. *)
Definition axpy (iN : nat) (alpha : F) (x y : list F) : outcome (list F) :=
  if eqb alpha zero then Ok y else
  count iN 0 (fun i y => let* u := rd x i in cell y i (fun z => add z (mul alpha u))) y.
Definition scal (iN : nat) (alpha : F) (x : list F) : outcome (list F) :=
  count iN 0 (fun i x => cell x i (fun z => mul alpha z)) x.
(** xDOT with increments 1; clapack.cpp 106-116. *)
Fixpoint dot_from (n i : nat) (x y : list F) (s : F) : outcome F :=
  match n with
  | O => Ok s
  | S n => let* u := rd x i in let* v := rd y i in dot_from n (S i) x y (add s (mul u v))
  end.
Definition dot (iN : nat) (x y : list F) : outcome F := dot_from iN 0 x y zero.
End Blas.
