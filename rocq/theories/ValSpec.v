(** Specifications for comparison, maps, sorting and searching. *)
From Coq Require Import ZArith Bool List Sorting.
From Coq.Floats Require Import SpecFloat.
From Verif Require Import Base ValModel StrSpec.
Import ListNotations.
Local Open Scope Z_scope.

(** Values usable as map keys: numbers other than NaN, and NUL-free strings. *)
Inductive key : val -> Prop :=
| key_char : forall c, key (VChar c)
| key_int : forall z, key (VInt z)
| key_long : forall z, key (VLong z)
| key_float : forall f, f <> S754_nan -> key (VFloat f)
| key_double : forall f, f <> S754_nan -> key (VDouble f)
| key_string : forall s, chars s -> nul_free s -> key (VArr TChar (map VChar s)).

(** What a program observes of == and <. *)
Definition equal (a b : val) : Prop := veq a b = Ok true.
Definition less (a b : val) : Prop := vlt a b = Ok true.

(** Exactly one of three. *)
Definition exactly_one (p q r : Prop) : Prop :=
  (p /\ ~ q /\ ~ r) \/ (~ p /\ q /\ ~ r) \/ (~ p /\ ~ q /\ r).

(** Structural equality: scalars of the same type and equal value, arrays of the same
    length with equal elements (a map counts as the array of its values). *)
Inductive same : val -> val -> Prop :=
| same_char : forall z, same (VChar z) (VChar z)
| same_int : forall z, same (VInt z) (VInt z)
| same_long : forall z, same (VLong z) (VLong z)
| same_float : forall f g, SFcompare f g = Some Eq -> same (VFloat f) (VFloat g)
| same_double : forall f g, SFcompare f g = Some Eq -> same (VDouble f) (VDouble g)
| same_arr : forall t l u m, Forall2 same l m -> same (VArr t l) (VArr u m)
| same_arr_map : forall t l m, Forall2 same l (map snd m) -> same (VArr t l) (VMap m)
| same_map_arr : forall l u m, Forall2 same (map snd l) m -> same (VMap l) (VArr u m)
| same_map : forall l m, Forall2 same (map snd l) (map snd m) -> same (VMap l) (VMap m).

(** No nil and no view anywhere among the compared contents. *)
Inductive solid : val -> Prop :=
| solid_char : forall z, solid (VChar z)
| solid_int : forall z, solid (VInt z)
| solid_long : forall z, solid (VLong z)
| solid_float : forall f, solid (VFloat f)
| solid_double : forall f, solid (VDouble f)
| solid_arr : forall t l, Forall solid l -> solid (VArr t l)
| solid_map : forall l, Forall solid (map snd l) -> solid (VMap l).

(** No NaN among the compared contents. *)
Inductive nan_free : val -> Prop :=
| nf_char : forall z, nan_free (VChar z)
| nf_int : forall z, nan_free (VInt z)
| nf_long : forall z, nan_free (VLong z)
| nf_float : forall f, f <> S754_nan -> nan_free (VFloat f)
| nf_double : forall f, f <> S754_nan -> nan_free (VDouble f)
| nf_arr : forall t l, Forall nan_free l -> nan_free (VArr t l)
| nf_map : forall l, Forall nan_free (map snd l) -> nan_free (VMap l).

(** [p] is the lower bound of [x] in [l]. *)
Definition lower_bound (lt : val -> val -> Prop) (l : list val) (x : val) (p : nat) : Prop :=
  (p <= length l)%nat /\
  (forall i y, (i < p)%nat -> nth_error l i = Some y -> lt y x) /\
  (forall i y, (p <= i)%nat -> nth_error l i = Some y -> ~ lt y x).

(** The value last assigned to a key equal to [k] in a list of assignments. *)
Definition last_bound (ops : list (val * val)) (k v : val) : Prop :=
  exists pre k' post, ops = pre ++ (k', v) :: post /\ equal k' k /\
    forall k'' v'', In (k'', v'') post -> ~ equal k'' k.
Definition unbound (ops : list (val * val)) (k : val) : Prop :=
  forall k' v', In (k', v') ops -> ~ equal k' k.

(** Pairwise different keys. *)
Fixpoint distinct_keys (l : list val) : Prop :=
  match l with
  | [] => True
  | k :: t => (forall k', In k' t -> ~ equal k k') /\ distinct_keys t
  end.

(** A strict weak order on the values satisfying [P]. *)
Record strict_weak (P : val -> Prop) (lt : val -> val -> bool) : Prop := {
  sw_irrefl : forall x, P x -> lt x x = false;
  sw_trans : forall x y z, P x -> P y -> P z -> lt x y = true -> lt y z = true -> lt x z = true;
  sw_neg : forall x y z, P x -> P y -> P z -> lt x z = true -> lt x y = true \/ lt y z = true
}.

(** A map content with usable keys in strictly increasing order. *)
Definition sorted_map (l : list (val * val)) : Prop :=
  Forall key (map fst l) /\ Sorting.Sorted.StronglySorted less (map fst l).
