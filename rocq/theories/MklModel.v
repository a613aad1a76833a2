(** Models of /repo/lube/transpose-mkl.cpp and /repo/lube/dft-mkl.cpp, what is compiled instead of
    transpose-adhoc.cpp and dft-kiss.cpp where the Math Kernel Library is there.

    The library's transpositions are taken to do what they are documented to, with a factor of one
    that changes no number; the transforms are arbitrary, and so is what the library reports. *)
From Coq Require Import ZArith Bool List String.
From Verif Require Import Base StrModel GeoModel DftModel.
Import ListNotations.
Local Open Scope Z_scope.
Local Open Scope list_scope.

Section Mkl.
Variable A : Type.
(** mkl_?omatcopy('r', 't', rows, cols, 1, A, lda, B, ldb), called in transpose-mkl.cpp 101-112. *)
Definition omatcopy (rows cols : Z) (a : nat) (p lda : Z) (b : nat) (q ldb : Z) (m : mem A) : outcome (mem A) :=
  for_to A rows (fun r m =>
    for_to A cols (fun c m =>
      let* x := rd A m a (p + (r * lda + c)) in
      wr A m b (q + (c * ldb + r)) x) m) m.
(** mkl_?imatcopy('r', 't', rows, cols, 1, AB, lda, ldb), called in transpose-mkl.cpp 82-91: all of
    the matrix as it was is copied back. *)
Definition imatcopy (rows cols : Z) (a : nat) (p lda ldb : Z) (was : mem A) : outcome (mem A) :=
  for_to A cols (fun c m =>
    for_to A rows (fun r m =>
      let* x := rd A was a (p + (r * lda + c)) in
      wr A m a (p + (c * ldb + r)) x) m) was.
(** transpose-mkl.cpp 71-117: [Transpose::vector]. *)
Definition transpose_vector_mkl (i o : opd) (iOffsetI iOffsetO : Z) (m : mem A) : outcome (mem A) :=
  let* rows := shape A m i (dim i - 2) in
  let* cols := shape A m i (dim i - 1) in
  if is_same i o then imatcopy rows cols (o_arr o) (offset o + iOffsetO) cols rows m
  else omatcopy rows cols (o_arr i) (offset i + iOffsetI) cols (o_arr o) (offset o + iOffsetO) rows m.
(** transpose-mkl.cpp 23-41: [alloc] is that of transpose-adhoc.cpp. *)
Definition transpose_new_mkl (z : A) (m : mem A) (i : opd) : outcome (mem A * opd) :=
  let* (m, o) := transpose_alloc A z m i in
  let* m := unary_broadcast A 2 (transpose_vector_mkl i o) m i o in Ok (m, o).
(** transpose-mkl.cpp 43-68: [scalar], with the input for output. *)
Definition transpose_inplace_mkl (m : mem A) (i : opd) : outcome (mem A * opd) :=
  let* m := unary_broadcast A 2 (transpose_vector_mkl i i) m i i in
  match o_ip i with
  | None => Throw "Heap::stride(): not a view"
  | Some ip =>
    let d := v_dim ip in
    let* str1 := v_stride ip (d - 1) in
    let* shp1 := v_shape ip (d - 1) in
    let* _ := v_stride ip (d - 2) in
    let* shp2 := v_shape ip (d - 2) in
    let ip := set_nth ip (Z.to_nat ((d - 1) * 2 + 1)) shp2 in
    let ip := set_nth ip (Z.to_nat ((d - 2) * 2 + 1)) shp1 in
    let* s := imul shp2 str1 in
    Ok (m, mkop (o_arr i) (Some (set_nth ip (Z.to_nat ((d - 2) * 2 + 2)) s)))
  end.

(** dft-mkl.cpp 47-100: [DFTBase]; [e] is what the library reports against the descriptor, checked
    by [dftiCheck] (32-37). *)
Definition dft_ctor_mkl (e : option string) (iSize : Z) (iInverse : bool) (iForwardType : dtype) : outcome dft :=
  let half := Z.quot iSize 2 + 1 in
  let real t c := mkdft true t c (if iInverse then iSize else half) iInverse
                        (if iInverse then half else iSize) (if iInverse then iSize else half) in
  let complex t := mkdft true t t iSize iInverse iSize iSize in
  let* d := match iForwardType with
            | DFloat => Ok (real DFloat DCFloat)
            | DDouble => Ok (real DDouble DCDouble)
            | DCFloat => Ok (complex DCFloat)
            | DCDouble => Ok (complex DCDouble)
            | DOther => Throw "DFTBase::DFTBase: Unknown type"
            end in
  match e with Some e => Throw e | None => Ok d end.
(** dft-mkl.cpp 146-228: [vector]; [st] is what the library reports against a row. *)
Definition dft_vector_mkl (d : dft) (st : list A -> option string) (tr : list A -> list A) (i o : opd) (iOffsetI iOffsetO : Z) (m : mem A) : outcome (mem A) :=
  if is_same i o then Throw "DFTBase::vector(): not implemented" else
  let* r := rd_row A m (o_arr i) (offset i + iOffsetI) (Z.to_nat (d_in d)) in
  match st r with
  | Some e => Throw e
  | None => wr_row A m (o_arr o) (offset o + iOffsetO) (tr r)
  end.
(** dft-mkl.cpp 120-144: [scalar]. *)
Definition dft_scalar_mkl (d : dft) (st : list A -> option string) (tr : list A -> list A) (div : A -> A -> A) (num : Z -> A) (ti to : dtype) (m : mem A) (i o : opd) : outcome (mem A) :=
  if negb (dtype_eqb ti (if d_inverse d then d_inverseType d else d_forward d)) then Throw "DFTBase::scalar: wrong input type" else
  if negb (dtype_eqb to (if d_inverse d then d_forward d else d_inverseType d)) then Throw "DFTBase::scalar: wrong output type" else
  let* m := unary_broadcast A 1 (dft_vector_mkl d st tr i o) m i o in
  if d_inverse d then
    arith_broadcast A div (fun _ _ _ _ _ => Throw "ArithmeticFunctor::vector") m o (Scal A (num (d_oSize d))) o
  else Ok m.
(** dft-mkl.cpp 110-118: [alloc] is that of dft-kiss.cpp; /repo/lube/func.cpp 32-37. *)
Definition dft_new_mkl (d : dft) (z : A) (st : list A -> option string) (tr : list A -> list A) (div : A -> A -> A) (num : Z -> A) (ti : dtype) (m : mem A) (i : opd) : outcome (mem A * opd) :=
  let* (m, o) := dft_alloc A d z m i in
  let* m := dft_scalar_mkl d st tr div num ti (if d_inverse d then d_forward d else d_inverseType d) m i o in
  Ok (m, o).
End Mkl.
