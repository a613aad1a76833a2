(** Specifications for the JSON properties. *)
From Coq Require Import ZArith Bool List.
From Verif Require Import Base StrSpec ValModel ValSpec NumModel JsonModel.
Import ListNotations.
Local Open Scope Z_scope.

(** Text that survives a round trip: no NUL, quote or backslash; on a varstream ([ff])
    no byte 0xFF either. *)
Definition plain_text (ff : bool) (s : list Z) : Prop :=
  forall c, In c s -> -128 <= c <= 127 /\ c <> 0 /\ c <> 34 /\ c <> 92 /\ (ff = true -> c <> -1).

Definition is_number (v : val) : Prop :=
  match v with VChar _ | VInt _ | VLong _ | VFloat _ | VDouble _ => True | _ => False end.

(** The values that survive a round trip. *)
Inductive json_ok (ff : bool) : val -> Prop :=
| jo_nil : json_ok ff VNil
| jo_long : forall z, LONG_MIN <= z <= LONG_MAX -> json_ok ff (VLong z)
| jo_str : forall s, plain_text ff s -> json_ok ff (vstr s)
| jo_map : forall l, sorted_map l ->
    Forall (fun p => exists s, fst p = vstr s /\ plain_text ff s) l ->
    Forall (fun p => json_ok ff (snd p)) l -> json_ok ff (VMap l)
| jo_arr : forall x l, ~ is_number x -> json_ok ff x -> Forall (json_ok ff) l ->
    json_ok ff (VArr TVar (x :: l)).

(** Decimal digits and the number they denote. *)
Definition digit (c : Z) : Prop := 48 <= c <= 57.
Fixpoint number_of (d : list Z) : Z :=      (* least significant digit last *)
  match d with
  | [] => 0
  | c :: t => (c - 48) * 10 ^ Z.of_nat (length t) + number_of t
  end.

(** The usual decimal text of an integer: no superfluous zeros, minus sign if negative. *)
Definition decimal_text (z : Z) (s : list Z) : Prop :=
  exists d, Forall digit d /\ d <> [] /\ (hd 0 d = 48 -> d = [48]) /\
    ((0 <= z /\ s = d /\ number_of d = z) \/ (z < 0 /\ s = 45 :: d /\ number_of d = - z)).
