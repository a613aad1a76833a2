(** Model of the discrete Fourier transform functor of dft-kiss.cpp.

    The transforms of the kiss_fft library are arbitrary functions from a row to a row: they read
    the number of cells given by the size of the configuration and write as many as they return. *)
From Coq Require Import ZArith Bool List String.
From Verif Require Import Base GeoModel.
Import ListNotations.
Local Open Scope Z_scope.
Local Open Scope list_scope.

(** The types dft-kiss.cpp tells apart. *)
Inductive dtype := DFloat | DDouble | DCFloat | DCDouble | DOther.
Definition dtype_eqb (a b : dtype) : bool :=
  match a, b with DFloat, DFloat | DDouble, DDouble | DCFloat, DCFloat | DCDouble, DCDouble | DOther, DOther => true | _, _ => false end.
(** /repo/lube/dft-kiss.cpp 27-34: [DFTImpl].  [d_in] and [d_out] are what the configuration makes
    kiss read and write; [d_config] is whether there is one. *)
Record dft := mkdft { d_config : bool; d_forward : dtype; d_inverseType : dtype; d_oSize : Z; d_inverse : bool; d_in : Z; d_out : Z }.
(** /repo/lube/dft-kiss.cpp 47-88: [DFTBase].  kiss_fftr_alloc gives a null pointer for odd sizes. *)
Definition dft_ctor (iSize : Z) (iInverse : bool) (iForwardType : dtype) : outcome dft :=
  match iForwardType with
  | DFloat =>
    let half := Z.quot iSize 2 + 1 in
    Ok (mkdft (Z.even iSize) DFloat DCFloat (if iInverse then iSize else half) iInverse
              (if iInverse then half else iSize) (if iInverse then iSize else half))
  | DDouble => Throw "DFTBase::DFTBase: Kiss FFT float only"
  | DCFloat => Ok (mkdft true DCFloat DCFloat iSize iInverse iSize iSize)
  | DCDouble => Throw "DFTBase::DFTBase: Kiss FFT float only"
  | DOther => Throw "DFTBase::DFTBase: Unknown type"
  end.

Section Dft.
Variable A : Type.
(** /repo/lube/dft-kiss.cpp 100-108: [alloc]. *)
Definition dft_alloc (d : dft) (z : A) (m : mem A) (i : opd) : outcome (mem A * opd) :=
  let* s := shapes A m i in
  alloc_view A z m (firstn (List.length s - 1) s ++ [d_oSize d]).
(** /repo/lube/dft-kiss.cpp 136-196: [vector], with [tr] the transform chosen by the type and
    direction. *)
Definition dft_vector (d : dft) (tr : list A -> list A) (i o : opd) (iOffsetI iOffsetO : Z) (m : mem A) : outcome (mem A) :=
  if is_same i o then Throw "DFTBase::vector(): not implemented" else
  if negb (d_config d) then UB NullDeref else
  let* r := rd_row A m (o_arr i) (offset i + iOffsetI) (Z.to_nat (d_in d)) in
  wr_row A m (o_arr o) (offset o + iOffsetO) (tr r).
(** /repo/lube/dft-kiss.cpp 110-134: [scalar], for arrays of element types [ti] and [to]; the
    division by the size is var.h 108 with math.cpp 752-783. *)
Definition dft_scalar (d : dft) (tr : list A -> list A) (div : A -> A -> A) (num : Z -> A) (ti to : dtype) (m : mem A) (i o : opd) : outcome (mem A) :=
  if negb (dtype_eqb ti (if d_inverse d then d_inverseType d else d_forward d)) then Throw "DFTBase::scalar: wrong input type" else
  if negb (dtype_eqb to (if d_inverse d then d_forward d else d_inverseType d)) then Throw "DFTBase::scalar: wrong output type" else
  let* m := unary_broadcast A 1 (dft_vector d tr i o) m i o in
  if d_inverse d then
    arith_broadcast A div (fun _ _ _ _ _ => Throw "ArithmeticFunctor::vector") m o (Scal A (num (d_oSize d))) o
  else Ok m.
(** /repo/lube/func.cpp 32-37: [operator ()(iVar)]; the output has the type given by [alloc]. *)
Definition dft_new (d : dft) (z : A) (tr : list A -> list A) (div : A -> A -> A) (num : Z -> A) (ti : dtype) (m : mem A) (i : opd) : outcome (mem A * opd) :=
  let* (m, o) := dft_alloc d z m i in
  let* m := dft_scalar d tr div num ti (if d_inverse d then d_forward d else d_inverseType d) m i o in
  Ok (m, o).
End Dft.
