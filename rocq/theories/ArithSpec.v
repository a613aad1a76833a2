(** What arithmetic should do. *)
From Coq Require Import ZArith List.
From Coq.Floats Require Import SpecFloat.
From Verif Require Import Base ValModel NumModel ArithModel.
Import ListNotations.
Local Open Scope Z_scope.

(** [q] is [a] divided by [b], rounded towards zero. *)
Definition quotient (a b q : Z) : Prop :=
  b <> 0 /\ exists r, a = b * q + r /\ Z.abs r < Z.abs b /\ (0 <= r /\ 0 <= a \/ r <= 0 /\ a <= 0).
(** [r] is the exact result. *)
Definition exact (op : aop) (a b r : Z) : Prop :=
  match op with
  | Add => r = a + b
  | Sub => r = a - b
  | Mul => r = a * b
  | Div => quotient a b r
  end.
Definition int_range (z : Z) : Prop := - 2147483648 <= z <= 2147483647.
Definition long_range (z : Z) : Prop := - 9223372036854775808 <= z <= 9223372036854775807.
Definition char_range (z : Z) : Prop := -128 <= z <= 127.

(** The IEEE operation of the given precision. *)
Definition ieee (op : aop) (prec emax : Z) (a b r : spec_float) : Prop :=
  match op with
  | Add => r = SFadd prec emax a b
  | Sub => r = SFsub prec emax a b
  | Mul => r = SFmul prec emax a b
  | Div => r = SFdiv prec emax a b
  end.

(** [r] is the result of the operation on two numbers of one type. *)
Inductive result (op : aop) : val -> val -> val -> Prop :=
| res_char : forall a b r c, char_range a -> char_range b -> exact op a b r -> char_range c -> (exists k, r = c + 256 * k) -> result op (VChar a) (VChar b) (VChar c)
| res_int : forall a b r, exact op a b r -> int_range r -> result op (VInt a) (VInt b) (VInt r)
| res_long : forall a b r, exact op a b r -> long_range r -> result op (VLong a) (VLong b) (VLong r)
| res_float : forall a b r, ieee op 24 128 a b r -> result op (VFloat a) (VFloat b) (VFloat r)
| res_double : forall a b r, ieee op 53 1024 a b r -> result op (VDouble a) (VDouble b) (VDouble r).

(** [z] is the integer part of [f]: rounded towards zero. *)
Definition integer_part (f : spec_float) (z : Z) : Prop :=
  match f with
  | S754_zero _ => z = 0
  | S754_finite s m e =>
    let mag := if s then - z else z in
    0 <= mag /\ exists n d, n > 0 /\ d > 0 /\ Zpos m * 2 ^ Z.max 0 e = n /\ 2 ^ Z.max 0 (- e) = d /\ mag * d <= n < (mag + 1) * d
  | _ => False
  end.
(** The number [z] after conversion to a type with [n] values around zero. *)
Definition wrapped (n z w : Z) : Prop := - n <= 2 * w < n /\ exists k, z = w + n * k.
(** The right operand [y] taken as a number of the type of [x]. *)
Inductive taken_as : val -> val -> val -> Prop :=
| taken_same : forall x y, vtype x = vtype y -> taken_as x y y
| taken_char : forall a y z w, vtype y <> 1 -> (y = VInt z \/ y = VLong z) -> wrapped 256 z w -> taken_as (VChar a) y (VChar w)
| taken_int_c : forall a z, char_range z -> taken_as (VInt a) (VChar z) (VInt z)
| taken_int_l : forall a z w, wrapped 4294967296 z w -> taken_as (VInt a) (VLong z) (VInt w)
| taken_long : forall a y z, (y = VChar z \/ y = VInt z) -> long_range z -> taken_as (VLong a) y (VLong z)
| taken_char_f : forall a y f z, (y = VFloat f \/ y = VDouble f) -> integer_part f z -> char_range z -> taken_as (VChar a) y (VChar z)
| taken_int_f : forall a y f z, (y = VFloat f \/ y = VDouble f) -> integer_part f z -> int_range z -> taken_as (VInt a) y (VInt z)
| taken_long_f : forall a y f z, (y = VFloat f \/ y = VDouble f) -> integer_part f z -> long_range z -> taken_as (VLong a) y (VLong z)
| taken_float_d : forall a f, taken_as (VFloat a) (VDouble f) (VFloat (match f with S754_finite s m e => binary_round 24 128 s m e | _ => f end))
| taken_double_f : forall a f, taken_as (VDouble a) (VFloat f) (VDouble f)
| taken_float_i : forall a y z, (y = VChar z \/ y = VInt z \/ y = VLong z) -> taken_as (VFloat a) y (VFloat (binary_normalize 24 128 z 0 false))
| taken_double_i : forall a y z, (y = VChar z \/ y = VInt z \/ y = VLong z) -> taken_as (VDouble a) y (VDouble (binary_normalize 53 1024 z 0 false)).

Definition is_number (v : val) : Prop := match v with VChar _ | VInt _ | VLong _ | VFloat _ | VDouble _ => True | _ => False end.

(** Every number in an array, at any depth, takes part; the keys of a map do not. *)
Inductive every (num : val -> val -> Prop) : val -> val -> Prop :=
| every_number : forall x r, is_number x -> num x r -> every num x r
| every_array : forall t l l', Forall2 (every num) l l' -> every num (VArr t l) (VArr t l')
| every_map : forall l l', Forall2 (fun p q => fst p = fst q /\ every num (snd p) (snd q)) l l' -> every num (VMap l) (VMap l').
(** The operation with the number [y] on the right. *)
Definition op_by (op : aop) (y x r : val) : Prop := exists y', taken_as x y y' /\ result op x y' r.
(** The number is one its type can hold. *)
Definition holds (v : val) : Prop :=
  match v with VChar z => char_range z | VInt z => int_range z | VLong z => long_range z | _ => True end.
(** [f32] or [f64] of a floating point number. *)
Inductive applied (f32 f64 : spec_float -> spec_float) : val -> val -> Prop :=
| app_float : forall a, applied f32 f64 (VFloat a) (VFloat (f32 a))
| app_double : forall a, applied f32 f64 (VDouble a) (VDouble (f64 a)).
(** The elements of the dense arrays in it are of their type. *)
Inductive typed : val -> Prop :=
| typed_number : forall x, is_number x -> typed x
| typed_vars : forall l, Forall typed l -> typed (VArr TVar l)
| typed_dense : forall t l, t <> TVar -> Forall (fun v => is_number v /\ ety_of v = t) l -> typed (VArr t l)
| typed_map : forall l, Forall (fun p => typed (snd p)) l -> typed (VMap l).
