(** Conversions between numbers and text, and between element types:
    [var::cast] /repo/lube/var.cpp 129-149 and 646-700, [toNumber] /repo/lube/json.cpp 164-183.

    The formatted extraction operators are library code; the rules below are those of
    libstdc++'s num_get in the C locale (no grouping). *)
From Coq Require Import ZArith Bool List String.
From Coq.Floats Require Import SpecFloat.
From Verif Require Import Base StrModel ValModel.
Import ListNotations.
Local Open Scope list_scope.
Local Open Scope Z_scope.

(** What the extraction operators see of a string through a varstream: a char 0xFF is
    taken for end-of-file (/repo/lube/stream.cpp 58-68). *)
Fixpoint vs_text (s : str) : str :=
  match s with
  | [] => []
  | c :: t => if c =? -1 then [] else c :: vs_text t
  end.

Definition isdigit (c : Z) : bool := (48 <=? c) && (c <=? 57).
Fixpoint take_digits (s : str) : str * str :=
  match s with
  | [] => ([], [])
  | c :: t => if isdigit c then let (d, r) := take_digits t in (c :: d, r) else ([], s)
  end.
(** The number written by a list of decimal digits. *)
Fixpoint digits_value (acc : Z) (d : str) : Z :=
  match d with
  | [] => acc
  | c :: t => digits_value (10 * acc + (c - 48)) t
  end.

(** An optional sign: is it negative, and the rest. *)
Definition take_sign (s : str) : bool * str :=
  match s with
  | c :: t => if c =? 45 then (true, t) else if c =? 43 then (false, t) else (false, s)
  | [] => (false, [])
  end.

(** [stream >> long] after skipping white space: [None] is failbit (no digits, or the
    number is out of range). *)
Definition extract_long (s : str) : option Z :=
  let (neg, s) := take_sign (skip_space (vs_text s)) in
  match fst (take_digits s) with
  | [] => None
  | d => let v := digits_value 0 d in
         let v := if neg : bool then - v else v in
         if in_long v then Some v else None
  end.
(** [stream >> int]: a long in the range of int. *)
Definition extract_int (s : str) : option Z :=
  match extract_long s with
  | Some v => if in_int v then Some v else None
  | None => None
  end.

(** m * 10^e rounded to nearest even (strtod/strtof). *)
Definition dec_float (prec emax : Z) (neg : bool) (m e : Z) : spec_float :=
  match m with
  | Zpos p =>
    if 0 <=? e then match m * 10 ^ e with
                    | Zpos q => binary_round prec emax neg q 0
                    | _ => S754_zero neg
                    end
    else match 10 ^ (- e) with
         | Zpos q => SFdiv prec emax (S754_finite neg p 0) (S754_finite false q 0)
         | _ => S754_zero neg
         end
  | _ => S754_zero neg
  end.

(** The exponent part: [None] when an exponent letter is not followed by a number. *)
Definition take_exponent (s : str) : option Z :=
  match s with
  | c :: t =>
    if (c =? 101) || (c =? 69) then
      let (neg, t) := take_sign t in
      match fst (take_digits t) with
      | [] => None
      | d => Some (if neg : bool then - digits_value 0 d else digits_value 0 d)
      end
    else Some 0
  | [] => Some 0
  end.

(** [stream >> double] (or float): [None] is failbit (malformed, or overflow). *)
Definition extract_float (prec emax : Z) (s : str) : option spec_float :=
  let (neg, s) := take_sign (skip_space (vs_text s)) in
  let (ip, s) := take_digits s in
  let (fp, s) := match s with
                 | c :: t => if c =? 46 then take_digits t else ([], s)
                 | [] => ([], [])
                 end in
  match ip ++ fp with
  | [] => None
  | d => match take_exponent s with
         | None => None
         | Some e =>
           let f := dec_float prec emax neg (digits_value 0 d) (e - Z.of_nat (List.length fp)) in
           match f with S754_infinity _ => None | _ => Some f end
         end
  end.
Definition extract_double := extract_float 53 1024.

(** [stream >> char]: the first character that is not white space. *)
Definition extract_char (s : str) : option Z :=
  match skip_space (vs_text s) with c :: _ => Some c | [] => None end.

(** /repo/lube/json.cpp 164-183.  The failed extraction of a long leaves the stream usable
    after clear() and seekg(0). *)
Definition toNumber (s : str) : val :=
  match extract_long s with
  | Some l => VLong l
  | None => match extract_double s with
            | Some d => VDouble d
            | None => VNil
            end
  end.

(** static_cast between arithmetic types. *)
Definition float_of_Z (prec emax z : Z) : spec_float := binary_normalize prec emax z 0 false.
Definition float_round (prec emax : Z) (f : spec_float) : spec_float :=
  match f with
  | S754_finite s m e => binary_round prec emax s m e
  | _ => f
  end.
Definition float_trunc (f : spec_float) : option Z :=
  match f with
  | S754_zero _ => Some 0
  | S754_finite s m e =>
    let a := if 0 <=? e then Zpos m * 2 ^ e else Zpos m / 2 ^ (- e) in
    Some (if s then - a else a)
  | _ => None
  end.

Definition str_of (v : val) : str := match v with VArr _ l => map char_of l | _ => [] end.

(** Conversion of an integer value to element type [t]. *)
Definition cast_Z (t : ety) (z : Z) : outcome val :=
  match t with
  | TChar => Ok (VChar (wrap_char z))
  | TInt => Ok (VInt (wrap_int z))
  | TLong => Ok (VLong (wrap_long z))
  | TFloat => Ok (VFloat (float_of_Z 24 128 z))
  | TDouble => Ok (VDouble (float_of_Z 53 1024 z))
  | TVar => Ok (VLong z)     (* not used *)
  end.
(** Conversion of a floating value: out of range is undefined. *)
Definition cast_F (t : ety) (f : spec_float) : outcome val :=
  let to (lo hi : Z) (k : Z -> val) :=
    match float_trunc f with
    | None => UB SignedOverflow
    | Some z => if (lo <=? z) && (z <=? hi) then Ok (k z) else UB SignedOverflow
    end in
  match t with
  | TChar => to (-128) 127 VChar
  | TInt => to INT_MIN INT_MAX VInt
  | TLong => to LONG_MIN LONG_MAX VLong
  | TFloat => Ok (VFloat (float_round 24 128 f))
  | TDouble => Ok (VDouble f)
  | TVar => Ok (VDouble f)   (* not used *)
  end.
(** Conversion of a string: the stream throws on failure (/repo/lube/var.cpp 661-669). *)
Definition cast_str (t : ety) (s : str) : outcome val :=
  let conv (o : option val) := match o with
                               | Some v => Ok v
                               | None => Throw "basic_ios::clear: iostream error"
                               end in
  conv match t with
       | TChar => option_map VChar (extract_char s)
       | TInt => option_map VInt (extract_int s)
       | TLong => option_map VLong (extract_long s)
       | TFloat => option_map VFloat (extract_float 24 128 s)
       | TDouble => option_map VDouble (extract_float 53 1024 s)
       | TVar => None   (* not used *)
       end.

(** [var::cast<T>()] as used for a store into a dense array, /repo/lube/var.cpp 286-309,
    129-149, 646-700.  For nil and for arrays other than strings the functor returns nil or
    an array and [get<T>] then reads the bits of its pointer as a number: [TypePun]. *)
Definition cast (t : ety) (x : val) : outcome val :=
  match t, x with
  | TChar, VChar _ | TInt, VInt _ | TLong, VLong _ | TFloat, VFloat _ | TDouble, VDouble _ => Ok x
  | _, (VChar z | VInt z | VLong z) => cast_Z t z
  | _, (VFloat f | VDouble f) => cast_F t f
  | _, VArr TChar l => cast_str t (map char_of l)
  | _, _ => UB TypePun
  end.

(** [var::push] /repo/lube/var.cpp 1066-1089 on values: [ ( *this)\[size()\] = iVar ] after
    the type checks.  Pushing onto a map is not modelled. *)
Definition ety_of (v : val) : ety :=
  match v with
  | VChar _ => TChar | VInt _ => TInt | VLong _ => TLong | VFloat _ => TFloat | VDouble _ => TDouble
  | _ => TVar
  end.
Definition push (a x : val) : outcome val :=
  match a with
  | VNil => if negb (vtype x =? 0) then Ok x else Ok (VArr TVar [x])
  | VArr TVar l => Ok (VArr TVar (l ++ [x]))
  | VArr t l => let* y := cast t x in Ok (VArr t (l ++ [y]))
  | VMap _ | VView _ _ _ => Throw "not modelled"
  | _ => if negb (vtype x =? vtype a) then Throw "push(): Incompatible types"
         else Ok (VArr (ety_of a) [a; x])
  end.
