(** The dot product of vectors of complex numbers: [Dot], /repo/lube/math.cpp 637-747 and math.h 158-171,
    through /repo/lube/func.cpp 142-177 and 257-299 and [blas::dot], /repo/lube/clapack.cpp 124-138.  Arrays
    have one dimension; variables are those of CplxModel. *)
From Coq Require Import ZArith Bool List String Arith.
From Verif Require Import Base CplxModel.
Import ListNotations.
Local Open Scope string_scope.
Local Open Scope list_scope.
Local Notation length := List.length.

Section Cdot.
Variable K : reals.
Variables (plus minus times : tF K -> tF K -> tF K).

(** cdotc_ and zdotc_, clapack.cpp 128 and 136: the numbers on the left are conjugated.  Here for float. *)
Definition cdotc_step (s x y : num K) : num K :=
  match s, x, y with
  | NCFloat a b, NCFloat xr xi, NCFloat yr yi =>
    NCFloat (plus a (plus (times xr yr) (times xi yi))) (plus b (minus (times xr yi) (times xi yr)))
  | _, _, _ => s
  end.
Fixpoint cdotc (m : store K) (a b : nat) (l : list nat) (s : num K) : outcome (num K) :=
  match l with
  | [] => Ok s
  | i :: l => let* x := rd K m a i in let* y := rd K m b i in cdotc m a b l (cdotc_step s x y)
  end.
(** [Dot::vector], math.cpp 659-747; the assertion is that of 665, with the [type] of 76-82. *)
Definition dot_vector (m : store K) (x y o : cvar K) : outcome (store K * cvar K) :=
  let* t := ftype K m x in
  match t, x, y with
  | None, Arr a, Arr b =>
    let* n := vsize K m y in
    let* h := arr K m a in
    match fst h with
    | ECFloat => let* s := cdotc m a b (seq 0 n) (NCFloat (f0 K) (f0 K)) in put K m o s
    | EInt => Throw "Dot::vector: Unknown type"
    | _ => Throw "not modelled"
    end
  | None, _, _ => Throw "not modelled"
  | Some _, _, _ => UB AssertFail
  end.
(** [ArithmeticFunctor::broadcast], func.cpp 257-299; [Dot] has no [scalar] of its own, so that one calls
    [broadcast] again (172-177).  [Fuel]: more than [fuel] calls are under way. *)
Fixpoint dot_broadcast (fuel : nat) (m : store K) (x y o : cvar K) : outcome (store K * cvar K) :=
  match fuel with
  | O => Fuel
  | S fuel =>
    let* sx := vsize K m x in
    let* sy := vsize K m y in
    if Nat.eqb sy 1 then
      let* m := each K (fun m i => let* (m, tmp) := at_ K m o i in
                                   let* (m, xi) := at_ K m x i in
                                   let* (m, _) := dot_broadcast fuel m xi y tmp in Ok m) m (seq 0 sx) in
      Ok (m, o)
    else
      let* ax := atype K m x in
      let* ay := atype K m y in
      if negb (ety_eqb ax ay) then Throw "var::broadcast: types must match (for now)"
      else if Nat.eqb sx 0 then UB DivByZero
      else dot_vector m x y o
  end.
(** [Dot::alloc] and [scalarAlloc], math.cpp 637-643 and 111-126, and [operator ()], func.cpp 146-154. *)
Definition dot (fuel : nat) (m : store K) (x y : cvar K) : outcome (store K * cvar K) :=
  let* (m, x0) := at_ K m x 0 in
  let* (m, r) := assign K m Nil x0 in
  dot_broadcast fuel m x y r.
End Cdot.
