(** Properties of arithmetic: C101 to C109. *)
From Coq Require Import ZArith Bool List String Lia ZifyBool.
From Coq.Floats Require Import SpecFloat.
From Verif Require Import Base StrModel ValModel NumModel EqProof JsonSpec JsonModel JsonProof JsonRound ValProof ArithModel ArithSpec ArithProof.
Import ListNotations.
Local Open Scope string_scope.
Local Open Scope list_scope.
Local Open Scope Z_scope.
Local Notation length := List.length.

Lemma result_number : forall op x y r, result op x y r -> is_number x /\ is_number r.
Proof. intros op x y r []; cbn; auto. Qed.
Lemma alloc_number : forall x, is_number x -> alloc x = x.
Proof. intros x N. destruct x; try contradiction N; reflexivity. Qed.
Lemma new_number : forall op x y, is_number x -> arith_new op x y = let* r := num_op op x y in if vtype x =? vtype r then Ok r else UB TypePun.
Proof.
  intros op x y N. unfold arith_new. rewrite (alloc_number x N), scalar_number by exact N. destruct (num_op op x y) as [r| | |]; cbn [store obind]; auto.
  destruct (vtype x =? vtype r); reflexivity.
Qed.

(** * C101: numbers *)
(** The right operand is taken as a number of the left one's type, and the result is of that type
    too; [+=] gives what [+] gives. *)
Theorem C101_number : forall op x y y' r, taken_as x y y' -> result op x y' r ->
  arith_new op x y = Ok r /\ arith_in op x y = (r, Ok tt).
Proof.
  intros op x y y' r T R. destruct (result_number _ _ _ _ R) as (N & _). pose proof (num_op_ok op x y y' r N T R) as E.
  pose proof (result_type _ _ _ _ R) as Ty. split.
  - rewrite new_number by exact N. rewrite E. cbn [obind]. rewrite Ty, Z.eqb_refl. reflexivity.
  - unfold arith_in. rewrite scalar_number by exact N. rewrite E. cbn [store]. rewrite Ty, Z.eqb_refl. reflexivity.
Qed.
(** There is no other result. *)
Theorem C101_only : forall op x y r, is_number x -> is_number y -> holds x -> holds y -> arith_new op x y = Ok r ->
  exists y', taken_as x y y' /\ result op x y' r.
Proof.
  intros op x y r Nx Ny Hx Hy E. rewrite new_number in E by exact Nx. destruct (num_op op x y) as [v| | |] eqn:O; try discriminate E.
  cbn [obind] in E. destruct (vtype x =? vtype v); [|discriminate E]. injection E as <-. apply (num_op_only op x y v); auto.
Qed.
(** Results an int or a long cannot hold are undefined, and so is division of integers by zero. *)
Theorem C101_overflow : forall op a b r, exact op a b r ->
  (~ int_range r -> arith_new op (VInt a) (VInt b) = UB SignedOverflow) /\
  (~ long_range r -> arith_new op (VLong a) (VLong b) = UB SignedOverflow).
Proof.
  intros op a b r X. split; intros R; rewrite new_number by exact Logic.I; cbn [num_op cast obind]; unfold s_op; rewrite (z_op_exact _ _ _ _ X); cbn [obind].
  - destruct (in_int r) eqn:J; [apply in_int_iff in J; contradiction|reflexivity].
  - destruct (in_long r) eqn:J; [apply in_long_iff in J; contradiction|reflexivity].
Qed.
Theorem C101_by_zero : forall x y y', taken_as x y y' -> (x = VChar (char_of x) /\ y' = VChar 0 \/ (exists a, x = VInt a) /\ y' = VInt 0 \/ (exists a, x = VLong a) /\ y' = VLong 0) ->
  arith_new Div x y = UB DivByZero.
Proof.
  intros x y y' T C. assert (N : is_number x) by (destruct C as [(-> & _)|[((a & ->) & _)|((a & ->) & _)]]; exact Logic.I).
  destruct (taken_cast x y y' N T) as (E & _). rewrite new_number by exact N.
  destruct C as [(X & ->)|[((a & ->) & ->)|((a & ->) & ->)]]; [rewrite X in *|..]; cbn [num_op ety_of] in *; rewrite E; reflexivity.
Qed.
(** A floating point number too large for the integer type on the left (or not a number) is undefined. *)
Theorem C101_too_large : forall op a f y, (y = VFloat f \/ y = VDouble f) -> (forall z, integer_part f z -> ~ int_range z) ->
  arith_new op (VInt a) y = UB SignedOverflow.
Proof.
  intros op a f y Y H. rewrite new_number by exact Logic.I. cbn [num_op].
  assert (E : cast TInt y = UB SignedOverflow); [|rewrite E; reflexivity].
  destruct Y as [-> | ->]; cbn [cast]; unfold cast_F; (destruct (float_trunc f) as [z|] eqn:F; [|reflexivity]); apply trunc_part in F; apply H in F;
    match goal with |- (if ?b then _ else _) = _ => destruct b eqn:B; [|reflexivity] end; exfalso; apply F; unfold int_range; unfold INT_MIN, INT_MAX in B; lia.
Qed.

(** * C102: text and nil on the right *)
(** Text that starts with a decimal number counts as that number, whatever follows. *)
Theorem C102_text : forall op a d r, Forall digit d -> d <> [] -> match r with [] => True | c :: _ => isdigit c = false end ->
  (int_range (number_of d) -> arith_new op (VInt a) (vstr (d ++ r)) = arith_new op (VInt a) (VInt (number_of d))) /\
  (int_range (- number_of d) -> arith_new op (VInt a) (vstr (45 :: d ++ r)) = arith_new op (VInt a) (VInt (- number_of d))).
Proof.
  intros op a d r Hd Hn Hr. destruct (extract_long_digits d r Hd Hn Hr) as (E1 & E2).
  assert (K : forall s z, extract_long s = Some z -> int_range z -> cast TInt (vstr s) = Ok (VInt z)).
  { intros s z E R. unfold vstr. cbn [cast]. rewrite map_char_of. unfold cast_str, extract_int. rewrite E. apply in_int_iff in R. rewrite R. reflexivity. }
  split; intros R; rewrite !new_number by exact Logic.I; cbn [num_op].
  - rewrite (K _ (number_of d)); [reflexivity| |exact R]. apply E1. unfold int_range in R. unfold LONG_MAX. lia.
  - rewrite (K _ (- number_of d)); [reflexivity| |exact R]. apply E2. unfold int_range in R. unfold LONG_MIN. lia.
Qed.
Lemma no_digits : forall s, (forall c, In c s -> isdigit c = false) -> extract_long s = None.
Proof.
  intros s H. unfold extract_long. assert (V : forall c, In c (vs_text s) -> In c s).
  { clear H. induction s as [|c s IH]; cbn [vs_text]; auto. destruct (c =? -1); [intros c' []|]. cbn. intuition. }
  assert (W : forall p c, In c (skip_space p) -> In c p).
  { induction p as [|c p IH]; cbn [skip_space]; auto. destruct (isspace c); cbn; intuition. }
  assert (G : forall p, (forall c, In c p -> In c s) -> fst (take_digits (snd (take_sign p))) = []).
  { intros p Hp. assert (T : forall q, (forall c, In c q -> In c p) -> fst (take_digits q) = []).
    { intros [|c q] Hq; [reflexivity|]. cbn [take_digits]. rewrite H; [reflexivity|]. apply Hp, Hq. left; reflexivity. }
    apply T. destruct p as [|c p]; cbn [take_sign]; [auto|]. destruct (c =? 45); [cbn; intuition|]. destruct (c =? 43); cbn; intuition. }
  specialize (G (skip_space (vs_text s))). destruct (take_sign (skip_space (vs_text s))) as (neg & q). cbn [snd] in G.
  rewrite G; [reflexivity|]. intros c Hc. apply V, W, Hc.
Qed.
(** Text without a digit is refused. *)
Theorem C102_no_number : forall op a s, (forall c, In c s -> ~ 48 <= c <= 57) ->
  arith_new op (VInt a) (vstr s) = Throw "basic_ios::clear: iostream error" /\
  arith_in op (VInt a) (vstr s) = (VInt a, Throw "basic_ios::clear: iostream error").
Proof.
  intros op a s H. assert (E : num_op op (VInt a) (vstr s) = Throw "basic_ios::clear: iostream error").
  { cbn [num_op]. unfold vstr. cbn [cast]. rewrite map_char_of. unfold cast_str, extract_int. rewrite no_digits; [reflexivity|].
    intros c Hc. apply H in Hc. unfold isdigit. lia. }
  split; [rewrite new_number by exact Logic.I; rewrite E; reflexivity|]. unfold arith_in. rewrite scalar_number by exact Logic.I. rewrite E. reflexivity.
Qed.
(** nil on the left is refused; nil on the right of a number reads a member that was not written. *)
Theorem C102_nil : forall op x, is_number x -> arith_new op VNil x = Throw "var::atype(): Undefined" /\
  arith_in op VNil x = (VNil, Throw "var::atype(): Undefined") /\ arith_new op x VNil = UB TypePun.
Proof.
  intros op x N. split; [reflexivity|]. split; [reflexivity|]. rewrite new_number by exact N. destruct x; try contradiction N; reflexivity.
Qed.

(** * C103: a number with every element, in place *)
Lemma over_every : forall f l l', Forall2 (fun x r => f x x = (r, Ok tt)) l l' -> over f l l = (l', Ok tt).
Proof. intros f l l' H. induction H; cbn [over]; auto. rewrite H, IHForall2. reflexivity. Qed.
Lemma over_map_every : forall f l l', Forall2 (fun p q => fst p = fst q /\ f (snd p) (snd p) = (snd q, Ok tt)) l l' -> over_map f l l = (l', Ok tt).
Proof.
  intros f l l' H. induction H as [|(k, x) (k', r) l l' (K & E) F IH]; cbn [over_map]; auto. cbn in K, E. subst k'. rewrite E, IH. reflexivity.
Qed.
Theorem C103_in_place : forall op y x r, is_number y -> every (op_by op y) x r -> arith_in op x y = (r, Ok tt).
Proof.
  intros op y x r Ny. unfold arith_in. destruct (number_size y Ny) as (V & Sz). revert r.
  induction x using val_ind2; intros r E; inversion E as [x' r' N B|t' l1 l' F|l1 l' F]; subst; try contradiction N;
    try (rewrite scalar_number by exact N; destruct (op_by_num _ _ _ _ N B) as (-> & Ty); cbn [store]; rewrite Ty, Z.eqb_refl; reflexivity).
  - cbn [scalar]. rewrite V, Sz. assert (F' : Forall2 (fun x r => scalar op true y x x = (r, Ok tt)) l l').
    { clear E. revert H. induction F as [|a b l l' Ha Fl IHF]; intros G; constructor; inversion G; subst; auto. }
    destruct l; [inversion F; reflexivity|]. rewrite (over_every _ _ _ F'). reflexivity.
  - cbn [scalar]. rewrite V, Sz. assert (F' : Forall2 (fun p q => fst p = fst q /\ scalar op true y (snd p) (snd p) = (snd q, Ok tt)) l l').
    { clear E. revert H. induction F as [|p q l l' (A & B) F IHF]; intros G; constructor; inversion G as [|? ? (Ha & Hb) Hl]; subst; auto. }
    destruct l; [inversion F; reflexivity|]. rewrite (over_map_every _ _ _ F'). reflexivity.
Qed.
Lemma over_inv : forall f l r, over f l l = (r, Ok tt) -> Forall2 (fun x r => f x x = (r, Ok tt)) l r.
Proof.
  intros f. induction l as [|x l IH]; intros r E; cbn [over] in E; [injection E as <-; constructor|].
  destruct (f x x) as (x', [[]| | |]) eqn:Fx; try (injection E; discriminate).
  destruct (over f l l) as (r', e). injection E as <- ->. constructor; auto.
Qed.
Lemma over_map_inv : forall f l r, over_map f l l = (r, Ok tt) -> Forall2 (fun p q => fst p = fst q /\ f (snd p) (snd p) = (snd q, Ok tt)) l r.
Proof.
  intros f. induction l as [|(k, x) l IH]; intros r E; cbn [over_map] in E; [injection E as <-; constructor|].
  destruct (f x x) as (x', [[]| | |]) eqn:Fx; try (injection E; discriminate).
  destruct (over_map f l l) as (r', e). injection E as <- ->. constructor; auto.
Qed.
Theorem C103_only : forall op y x r, is_number y -> holds y -> every (fun v _ => holds v) x x -> arith_in op x y = (r, Ok tt) -> every (op_by op y) x r.
Proof.
  intros op y x r Ny Hy. unfold arith_in. destruct (number_size y Ny) as (V & Sz). revert r.
  induction x using val_ind2; intros r W E; inversion W as [x' r' N B|t' l1 l' F|l1 l' F]; subst; try contradiction N;
    try (rewrite scalar_number in E by exact N; match type of E with store _ ?o = _ => destruct o as [v| | |] eqn:O; cbn [store] in E; try discriminate E end;
         match type of E with (if ?b then _ else _) = _ => destruct b; try discriminate E end; injection E as <-; apply every_number; [exact N|]; apply num_op_only; auto; exact B).
  - cbn [scalar] in E. rewrite V, Sz in E. destruct l as [|x0 l0] eqn:L; [injection E as <-; apply every_array; constructor|]. rewrite <- L in *.
    destruct (over (scalar op true y) l l) as (r', e) eqn:O. injection E as <- ->. apply over_inv in O. apply every_array.
    clear - F O H. revert r' O. induction l as [|a l IHl]; intros r' O; inversion O; subst; constructor; inversion F; inversion H; subst; auto.
  - cbn [scalar] in E. rewrite V, Sz in E. destruct l as [|x0 l0] eqn:L; [injection E as <-; apply every_map; constructor|]. rewrite <- L in *.
    destruct (over_map (scalar op true y) l l) as (r', e) eqn:O. injection E as <- ->. apply over_map_inv in O. apply every_map.
    clear - F O H. revert r' O. induction l as [|a l IHl]; intros r' O; inversion O as [|? ? ? ? (Ka & Ea)]; subst; constructor; inversion F as [|? ? ? ? (Kb & Eb)]; inversion H as [|? ? (Ha & Hb)]; subst; auto.
Qed.

(** * C104: a number with every element, into a new array *)
Lemma over_new : forall op y t l l', t <> TVar -> Forall (fun v => is_number v /\ ety_of v = t) l -> Forall2 (op_by op y) l l' ->
  over (scalar op false y) l (map (fun _ => zero_of t) l) = (l', Ok tt).
Proof.
  intros op y t l l' T A F. revert A. induction F as [|x r l l' B F IH]; intros A; cbn [over map]; auto.
  apply Forall_inv in A as Ax. apply Forall_inv_tail in A. destruct Ax as (N & Ty). rewrite scalar_number by exact N.
  destruct (op_by_num _ _ _ _ N B) as (-> & Tr). cbn [store]. replace (vtype (zero_of t)) with (vtype r); [rewrite Z.eqb_refl, (IH A); reflexivity|].
  rewrite Tr. destruct x; try contradiction N; cbn in Ty; subst t; reflexivity.
Qed.
(** From a dense array. *)
Theorem C104_dense : forall op y t l l', is_number y -> t <> TVar -> Forall (fun v => is_number v /\ ety_of v = t) l -> Forall2 (op_by op y) l l' ->
  arith_new op (VArr t l) y = Ok (VArr t l').
Proof.
  intros op y t l l' Ny T A F. unfold arith_new. cbn [alloc scalar]. destruct (number_size y Ny) as (-> & ->).
  destruct l as [|x l]; [inversion F; reflexivity|]. rewrite (over_new op y t _ l' T A F). reflexivity.
Qed.
(** From an array of vars or a map that starts with a number: the number is written over the
    pointer of an undefined variable. *)
Theorem C104_vars : forall op y e r l, is_number y -> is_number e -> op_by op y e r -> arith_new op (VArr TVar (e :: l)) y = UB TypePun.
Proof.
  intros op y e r l Ny Ne B. unfold arith_new. cbn [alloc scalar map zero_of]. destruct (number_size y Ny) as (-> & ->). cbn [over]. rewrite scalar_number by exact Ne.
  destruct (op_by_num _ _ _ _ Ne B) as (-> & Tr). cbn [store]. rewrite Tr. destruct e; try contradiction Ne; reflexivity.
Qed.
Theorem C104_map : forall op y k e r l, is_number y -> is_number e -> op_by op y e r -> arith_new op (VMap ((k, e) :: l)) y = UB TypePun.
Proof.
  intros op y k e r l Ny Ne B. unfold arith_new. cbn [alloc scalar map zero_of]. destruct (number_size y Ny) as (-> & ->). cbn [over_map]. rewrite scalar_number by exact Ne.
  destruct (op_by_num _ _ _ _ Ne B) as (-> & Tr). cbn [store]. rewrite Tr. destruct e; try contradiction Ne; reflexivity.
Qed.
(** An array of arrays is refused. *)
Theorem C104_nested : forall op y t e l' l, is_number y -> arith_new op (VArr TVar (VArr t (e :: l') :: l)) y = Throw "var::at(): uninitialised".
Proof. intros op y t e l' l Ny. unfold arith_new. cbn [alloc scalar map zero_of]. destruct (number_size y Ny) as (V & Sz). rewrite V, Sz. cbn [over scalar]. rewrite V, Sz. reflexivity. Qed.

(** * C105: an operation that throws half way *)
Lemma over_stop : forall f l1 l1' e e' l2 x, Forall2 (fun x r => f x x = (r, Ok tt)) l1 l1' -> f e e = (e', x) -> x <> Ok tt ->
  over f (l1 ++ e :: l2) (l1 ++ e :: l2) = (l1' ++ e' :: l2, x).
Proof.
  intros f l1 l1' e e' l2 x F E X. induction F as [|a b l1 l1' Ea F IH]; cbn [app over].
  - rewrite E. destruct x as [[]| | |]; congruence.
  - rewrite Ea, IH. reflexivity.
Qed.
Lemma every_in : forall op y l l', is_number y -> Forall2 (every (op_by op y)) l l' -> Forall2 (fun x r => scalar op true y x x = (r, Ok tt)) l l'.
Proof. intros op y l l' Ny F. induction F; constructor; auto. apply (C103_in_place op y); auto. Qed.
(** The elements before the one that throws have been changed, that one as far as it got, and the
    ones after it not at all. *)
Theorem C105_half_way : forall op y t l1 l1' e e' l2 m, is_number y -> Forall2 (every (op_by op y)) l1 l1' -> arith_in op e y = (e', Throw m) ->
  arith_in op (VArr t (l1 ++ e :: l2)) y = (VArr t (l1' ++ e' :: l2), Throw m).
Proof.
  intros op y t l1 l1' e e' l2 m Ny F E. unfold arith_in. cbn [scalar]. destruct (number_size y Ny) as (-> & ->).
  destruct (l1 ++ e :: l2) as [|x0 l0] eqn:L; [destruct l1; discriminate L|]. rewrite <- L.
  rewrite (over_stop _ l1 l1' e e' l2 (Throw m)); [reflexivity|apply every_in; auto|exact E|discriminate].
Qed.
Theorem C105_undefined : forall op y t l1 l1' l2, is_number y -> Forall2 (every (op_by op y)) l1 l1' ->
  arith_in op (VArr t (l1 ++ VNil :: l2)) y = (VArr t (l1' ++ VNil :: l2), Throw "var::atype(): Undefined").
Proof. intros. apply C105_half_way; auto. Qed.

(** * C106: an array and its own element *)
Lemma nth_mid : forall (a : list val) x b, nth_error (a ++ x :: b) (length a) = Some x.
Proof. intros. rewrite nth_error_app2 by lia. rewrite Nat.sub_diag. reflexivity. Qed.
Lemma with_own_ok : forall op k yk d r rest done, 
  (forall x z, nth_error (done ++ r) k = Some x -> nth_error done k = Some z -> z = d) ->
  nth_error (done ++ rest) k = Some (if (k <? length done)%nat then d else yk) ->
  length r = length rest ->
  (forall i x z, nth_error rest i = Some x -> nth_error r i = Some z -> is_number x /\ op_by op (if (k <? length done + i)%nat then d else yk) x z /\ ((length done + i)%nat = k -> z = d)) ->
  is_number d -> is_number yk ->
  with_own op k (length done) (length rest) (done ++ rest) = (done ++ r, Ok tt).
Proof.
  intros op k yk d r rest. revert r. induction rest as [|x rest IH]; intros r done D K L H Nd Ny.
  - destruct r; [|discriminate L]. reflexivity.
  - destruct r as [|z r]; [discriminate L|]. cbn [length with_own]. rewrite nth_mid, K.
    destruct (H 0%nat x z eq_refl eq_refl) as (Nx & B & Z). rewrite Nat.add_0_r in B, Z.
    rewrite scalar_number by exact Nx. destruct (op_by_num _ _ _ _ Nx B) as (-> & Ty). cbn [store]. rewrite Ty, Z.eqb_refl.
    replace (firstn (length done) (done ++ x :: rest) ++ z :: skipn (S (length done)) (done ++ x :: rest)) with ((done ++ [z]) ++ rest).
    2: { rewrite firstn_app, firstn_all, Nat.sub_diag. cbn [firstn]. rewrite app_nil_r. rewrite skipn_app. rewrite skipn_all2 by lia.
         replace (S (length done) - length done)%nat with 1%nat by lia. cbn [skipn app]. rewrite <- app_assoc. reflexivity. }
    replace (done ++ z :: r) with ((done ++ [z]) ++ r) by (rewrite <- app_assoc; reflexivity).
    replace (S (length done)) with (length (done ++ [z])) by (rewrite app_length; cbn; lia). apply IH; auto.
    + intros x' z' _ E. destruct (Nat.lt_ge_cases k (length done)) as [Lt|Ge].
      * rewrite nth_error_app1 in E by exact Lt. apply (D z' z'); auto. rewrite nth_error_app1 by exact Lt. exact E.
      * rewrite nth_error_app2 in E by exact Ge. assert (Eq : length done = k) by (destruct (k - length done)%nat eqn:Q; [lia|cbn in E; destruct n; discriminate E]).
        subst k. rewrite Nat.sub_diag in E. injection E as <-. auto.
    + rewrite app_length. cbn [length]. destruct (Nat.lt_trichotomy k (length done)) as [Lt|[Eq|Gt]].
      * replace (k <? length done)%nat with true in K by lia. replace (k <? length done + 1)%nat with true by lia. rewrite <- app_assoc. rewrite nth_error_app1 in K |- * by exact Lt. exact K.
      * subst k. replace (length done <? length done + 1)%nat with true by lia. rewrite <- app_assoc. cbn [app]. rewrite nth_mid. f_equal. auto.
      * replace (k <? length done)%nat with false in K by lia. replace (k <? length done + 1)%nat with false by lia. rewrite <- app_assoc. cbn [app]. rewrite nth_error_app2 in K |- * by lia.
        destruct (k - length done)%nat eqn:Q; [lia|]. exact K.
    + intros i x' z' Ei Ez. rewrite app_length. cbn [length]. replace (length done + 1 + i)%nat with (length done + S i)%nat by lia. apply (H (S i)); auto.
Qed.
(** [a op= a\[k\]]: the elements up to the k-th are combined with that element, the later ones with
    what it has become. *)
Theorem C106_own : forall op t l k y d r, nth_error l k = Some y -> op_by op y y d -> length r = length l ->
  (forall i x z, nth_error l i = Some x -> nth_error r i = Some z -> is_number x /\ op_by op (if (k <? i)%nat then d else y) x z /\ (i = k -> z = d)) ->
  arith_own op t l k = (VArr t r, Ok tt).
Proof.
  intros op t l k y d r K B L H. unfold arith_own.
  assert (Ny : is_number y) by (destruct (nth_error r k) as [z|] eqn:E; [apply (H k y z K E)|apply nth_error_None in E; assert (nth_error l k <> None) by congruence; apply nth_error_Some in H0; lia]).
  assert (Nd : is_number d) by (destruct B as (y' & _ & R); apply (result_number _ _ _ _ R)).
  pose proof (with_own_ok op k y d r l []) as W. cbn [app length] in W. rewrite W; auto.
  - intros x z _ E. destruct k; discriminate E.
Qed.

(** * C107: two arrays *)
(** The type of the elements, if they are all of one type. *)
Definition element_type (v : val) : option ety :=
  match v with
  | VArr t _ | VView _ t _ => Some t
  | VChar _ => Some TChar | VInt _ => Some TInt | VLong _ => Some TLong | VFloat _ => Some TFloat | VDouble _ => Some TDouble
  | _ => None
  end.
(** An array combined with an array of another size than one and of another type is refused. *)
Theorem C107_types : forall op x y, (exists t l, x = VArr t l) \/ (exists l, x = VMap l) -> is_view y = false -> vdefined y = true -> vsize y <> 1 -> element_type x <> element_type y ->
  arith_new op x y = Throw "var::broadcast: types must match (for now)" /\ arith_in op x y = (x, Throw "var::broadcast: types must match (for now)").
Proof.
  intros op x y X V D Sz Te. unfold arith_new, arith_in.
  assert (Ty : vatype x <> vatype y).
  { intros E. apply Te. destruct X as [(t & l & ->)|(l & ->)].
    - destruct y as [ |z|z|z|z|z|e0 l0|m0|a0 e0 b0]; try discriminate; try (cbn in Sz; congruence); [|destruct t; discriminate].
      destruct t; destruct e0; try discriminate; reflexivity.
    - destruct y as [ |z|z|z|z|z|e0 l0|m0|a0 e0 b0]; try discriminate; try reflexivity. destruct e0; discriminate. }
  apply Z.eqb_neq in Sz, Ty.
  destruct X as [(t & l & ->)|(l & ->)]; cbn [scalar]; rewrite V, Sz; unfold array_op; rewrite D, Ty; split; reflexivity.
Qed.
(** So is one with an array of the same type that is not of floating point numbers: [+=] and so on
    throw and change nothing; [+] and [-] fail an assertion. *)
Theorem C107_not_floats : forall op x y, (exists t l, x = VArr t l /\ l <> [] /\ t <> TFloat /\ t <> TDouble) \/ (exists l, x = VMap l /\ l <> []) ->
  is_view y = false -> vdefined y = true -> vsize y <> 1 -> vatype x = vatype y ->
  (exists m, arith_in op x y = (x, Throw m) /\ m <> "not modelled") /\
  match op with Add | Sub => arith_new op x y = UB AssertFail | _ => exists m, arith_new op x y = Throw m /\ m <> "not modelled" end.
Proof.
  intros op x y X V D Sz Ty. unfold arith_new, arith_in. apply Z.eqb_neq in Sz. apply Z.eqb_eq in Ty.
  assert (Z : forall A (l : list A), l <> [] -> Z.of_nat (length l) =? 0 = false) by (intros A [|a l] L; [congruence|cbn [length]; lia]).
  assert (F : vatype x <> 4 /\ vatype x <> 5) by (destruct X as [(t & l & -> & L & T1 & T2)|(l & -> & L)]; [destruct t|]; cbn; split; congruence || lia).
  assert (K : forall b out, scalar op b y x out = (out, vector op b (vatype x))).
  { intros b out. destruct X as [(t & l & -> & L & T1 & T2)|(l & -> & L)]; cbn [scalar]; rewrite V, Sz; unfold array_op; rewrite D, Ty; cbn [negb vsize vtype hsize Z.eqb]; rewrite (Z _ _ L); reflexivity. }
  rewrite !K. assert (G : (vatype x =? 4) || (vatype x =? 5) = false) by lia.
  destruct op; cbn [vector negb]; rewrite ?G; cbn [obind]; (split; [eexists; split; [reflexivity|discriminate]|]); try reflexivity; eexists; (split; [reflexivity|discriminate]).
Qed.
(** An empty array with an array of its type that is not of size one: division by zero. *)
Theorem C107_empty : forall op t l, length l <> 1%nat -> arith_new op (VArr t []) (VArr t l) = UB DivByZero /\ arith_in op (VArr t []) (VArr t l) = (VArr t [], UB DivByZero).
Proof.
  intros op t l L. unfold arith_new, arith_in. cbn [scalar alloc map is_view]. replace (vsize (VArr t l) =? 1) with false by (cbn; lia).
  unfold array_op. cbn [vdefined vatype negb]. rewrite Z.eqb_refl. split; reflexivity.
Qed.
(** Text with text of one visible character: the code of that character counts as the number. *)
Theorem C107_letter : forall op s c, c <> -1 -> isspace c = false ->
  arith_in op (vstr s) (vstr [c]) = arith_in op (vstr s) (VChar c) /\ arith_new op (vstr s) (vstr [c]) = arith_new op (vstr s) (VChar c).
Proof.
  intros op s c C W. assert (N : forall a, num_op op (VChar a) (vstr [c]) = num_op op (VChar a) (VChar c)).
  { intros a. cbn [num_op]. assert (E : cast TChar (vstr [c]) = cast TChar (VChar c)); [|rewrite E; reflexivity].
    cbn. unfold cast_str, extract_char. cbn [vs_text]. replace (c =? -1) with false by lia. cbn [skip_space]. rewrite W. reflexivity. }
  assert (O : forall b l lo, over (scalar op b (vstr [c])) (map VChar l) lo = over (scalar op b (VChar c)) (map VChar l) lo).
  { intros b. induction l as [|a l IH]; intros lo; cbn [map over]; auto. destruct lo as [|o lo]; auto. rewrite !scalar_number by exact Logic.I. rewrite N, IH. reflexivity. }
  assert (G : forall b out, scalar op b (vstr [c]) (VArr TChar (map VChar s)) out = scalar op b (VChar c) (VArr TChar (map VChar s)) out).
  { intros b out. cbn [scalar]. change (is_view (vstr [c])) with false. change (vsize (vstr [c]) =? 1) with true. cbn [is_view vsize vtype Z.eqb].
    destruct (map VChar s) as [|a l] eqn:L; [reflexivity|]. rewrite <- L. destruct out; auto. rewrite O. reflexivity. }
  change (vstr s) with (VArr TChar (map VChar s)). unfold arith_in, arith_new. rewrite !G. split; reflexivity.
Qed.

(** * C108: negation *)
Theorem C108_int : forall a, int_range a -> (- a <= 2147483647 -> negate (VInt a) = Ok (VInt (- a))) /\ (a = - 2147483648 -> negate (VInt a) = UB SignedOverflow).
Proof.
  intros a R. split; intros H; unfold negate.
  - apply (C101_number Mul (VInt a) (VInt (-1)) (VInt (-1)) (VInt (- a))); [apply taken_same; reflexivity|]. apply res_int; [cbn; lia|]. unfold int_range in *. lia.
  - apply (proj1 (C101_overflow Mul a (-1) (- a) ltac:(cbn; lia))). unfold int_range. lia.
Qed.
Theorem C108_long : forall a, long_range a -> (- a <= 9223372036854775807 -> negate (VLong a) = Ok (VLong (- a))) /\ (a = - 9223372036854775808 -> negate (VLong a) = UB SignedOverflow).
Proof.
  intros a R. assert (T : taken_as (VLong a) (VInt (-1)) (VLong (-1))) by (apply taken_long; [auto|unfold long_range; lia]). split; intros H; unfold negate.
  - apply (C101_number Mul (VLong a) (VInt (-1)) (VLong (-1)) (VLong (- a))); [exact T|]. apply res_long; [cbn; lia|]. unfold long_range in *. lia.
  - rewrite new_number by exact Logic.I. subst a. reflexivity.
Qed.
Theorem C108_char : forall a, char_range a -> negate (VChar a) = Ok (VChar (if a =? -128 then -128 else - a)).
Proof.
  intros a R. unfold negate. apply (C101_number Mul (VChar a) (VInt (-1)) (VChar (-1))).
  - eapply taken_char; [discriminate|left; reflexivity|]. split; [lia|exists 0; lia].
  - unfold char_range in R. eapply (res_char Mul a (-1) (- a)); [exact R|unfold char_range; lia|cbn; lia|unfold char_range; destruct (Z.eqb_spec a (-128)); lia|].
    destruct (Z.eqb_spec a (-128)); [exists 1|exists 0]; lia.
Qed.
(** Floating point numbers only change their sign. *)
Theorem C108_floats : forall f, (valid_binary 24 128 f = true -> negate (VFloat f) = Ok (VFloat (SFopp f))) /\
  (valid_binary 53 1024 f = true -> negate (VDouble f) = Ok (VDouble (SFopp f))).
Proof.
  intros f. split; intros V; unfold negate; rewrite new_number by exact Logic.I; cbn [num_op cast cast_Z obind f_op]; unfold float_of_Z.
  - rewrite opp_float by exact V. reflexivity.
  - rewrite opp_double by exact V. reflexivity.
Qed.

(** * C109: functions of a floating point number *)
Section Functions.
Variables f32 f64 : spec_float -> spec_float.
Variable unknown : string.
Notation fin := (unary_in f32 f64 unknown).
Notation fnew := (unary_new f32 f64 unknown).
Theorem C109_number : forall a, fin (VFloat a) = (VFloat (f32 a), Ok tt) /\ fnew (VFloat a) = Ok (VFloat (f32 a)) /\
  fin (VDouble a) = (VDouble (f64 a), Ok tt) /\ fnew (VDouble a) = Ok (VDouble (f64 a)).
Proof. intros a. split; [reflexivity|]. split; [reflexivity|]. split; reflexivity. Qed.
(** Integers and characters are refused. *)
Theorem C109_integers : forall x, vtype x = 1 \/ vtype x = 2 \/ vtype x = 3 -> fin x = (x, Throw unknown) /\ fnew x = Throw unknown.
Proof. intros x H. destruct x; cbn in H; try lia; split; reflexivity. Qed.
Lemma unary_applied : forall cell x r out, applied f32 f64 x r -> cell = None \/ cell = Some (ety_of x) -> unary f32 f64 unknown cell x out = (r, Ok tt).
Proof. intros cell x r out [] [->| ->]; reflexivity. Qed.
Lemma over_applied : forall t l l' lo, (t = TVar \/ Forall (fun v => ety_of v = t) l) -> Forall2 (applied f32 f64) l l' -> length lo = length l ->
  over (unary f32 f64 unknown (cell_of t)) l lo = (l', Ok tt).
Proof.
  intros t l l' lo T F. revert lo T. induction F as [|x r l l' A F IH]; intros [|o lo] T L; try discriminate L; cbn [over]; auto.
  rewrite (unary_applied _ x r o A).
  - rewrite IH; auto. destruct T as [T|T]; [left; exact T|right; apply Forall_inv_tail in T; exact T].
  - destruct T as [->|T]; [left; reflexivity|right]. apply Forall_inv in T. subst t. destruct A; reflexivity.
Qed.
(** In place: every number in arrays and maps, at any depth. *)
Theorem C109_in_place : forall x r, typed x -> every (applied f32 f64) x r -> fin x = (r, Ok tt).
Proof.
  unfold unary_in. induction x using val_ind2; intros r T E; inversion E as [x' r' N B|t' l1 l' F|l1 l' F]; subst; try contradiction N; try solve [apply unary_applied; auto].
  - cbn [unary]. inversion T as [? N|? A|? ? NT A|]; subst; [contradiction N| |].
    + assert (F' : Forall2 (fun x r => unary f32 f64 unknown None x x = (r, Ok tt)) l l').
      { clear E T. revert H A. induction F as [|a b l l' Ha Fl IHF]; intros G A; constructor; inversion G; inversion A; subst; auto. }
      destruct l; [inversion F; reflexivity|]. cbn [cell_of]. rewrite (over_every _ _ _ F'). reflexivity.
    + assert (F' : Forall2 (applied f32 f64) l l').
      { clear - F A. revert A. induction F as [|a b l l' Ha Fl IHF]; intros A; constructor; inversion A as [|? ? (Na & Ta)]; subst; auto. inversion Ha; subst; auto; contradiction Na. }
      destruct l as [|x0 l0] eqn:L; [inversion F; reflexivity|]. rewrite <- L in *. rewrite (over_applied t l l' l); auto. right.
      clear - A. induction A as [|? ? (? & ?)]; constructor; auto.
  - cbn [unary]. inversion T as [? N|? A|? ? NT A|? A]; subst; [contradiction N|]. assert (F' : Forall2 (fun p q => fst p = fst q /\ unary f32 f64 unknown None (snd p) (snd p) = (snd q, Ok tt)) l l').
    { clear E T. revert H A. induction F as [|p q l l' (Ka & Kb) F IHF]; intros G A; constructor; inversion G as [|? ? (Ha & Hb) Hl]; inversion A; subst; auto. }
    destruct l; [inversion F; reflexivity|]. rewrite (over_map_every _ _ _ F'). reflexivity.
Qed.
(** Into a new array: also from an array of vars; from a map the keys are lost. *)
Theorem C109_new : forall t l l', typed (VArr t l) -> Forall2 (applied f32 f64) l l' -> fnew (VArr t l) = Ok (VArr t l').
Proof.
  intros t l l' T F. unfold unary_new. cbn [alloc unary]. destruct l as [|x0 l0] eqn:L; [inversion F; reflexivity|]. rewrite <- L in *. cbn [map].
  rewrite (over_applied t l l'); auto; [|apply map_length].
  inversion T as [? N|? A|? ? NT A|]; subst; [contradiction N|left; reflexivity|right]. clear - A. induction A as [|? ? (? & ?)]; constructor; auto.
Qed.
Theorem C109_new_map : forall l l', Forall2 (applied f32 f64) (map snd l) l' -> fnew (VMap l) = Ok (VMap (map (fun r => (VNil, r)) l')).
Proof.
  intros l l' F. unfold unary_new. cbn [alloc unary].
  assert (K : over_map (unary f32 f64 unknown None) l (map (fun _ => (VNil, VNil)) l) = (map (fun r => (VNil, r)) l', Ok tt)).
  { revert l' F. induction l as [|(k, x) l IH]; intros l' F; inversion F as [|? r ? l0 A F0]; subst; cbn [over_map map]; auto. rewrite (unary_applied None x r VNil); auto. rewrite (IH l0); auto. }
  destruct l; [inversion F; reflexivity|]. cbn [map] in K |- *. rewrite K. reflexivity.
Qed.
Theorem C109_new_nested : forall t e l' l, fnew (VArr TVar (VArr t (e :: l') :: l)) = Throw "var::at(): uninitialised".
Proof. reflexivity. Qed.
End Functions.

(** * Examples *)
Definition half : spec_float := S754_finite false 4503599627370496 (-53).       (* 0.5 *)
Example C101_ex : taken_as (VInt 7) (VDouble (S754_finite true 6755399441055744 (-51))) (VInt (-3)) /\ result Div (VInt 7) (VInt (-3)) (VInt (-2)) /\
  arith_new Div (VInt 7) (VDouble (S754_finite true 6755399441055744 (-51))) = Ok (VInt (-2)) /\
  taken_as (VChar 100) (VInt 300) (VChar 44) /\ result Add (VChar 100) (VChar 44) (VChar (-112)) /\ arith_in Add (VChar 100) (VInt 300) = (VChar (-112), Ok tt) /\
  result Mul (VDouble half) (VDouble half) (VDouble (S754_finite false 4503599627370496 (-54))) /\
  ~ int_range (2147483647 + 1) /\ arith_new Add (VInt 2147483647) (VInt 1) = UB SignedOverflow /\ arith_new Div (VInt 1) (VDouble half) = UB DivByZero.
Proof.
  split. { apply (taken_int_f 7 _ (S754_finite true 6755399441055744 (-51)) (-3)); [auto| |unfold int_range; lia]. cbn. split; [lia|]. exists 6755399441055744, 2251799813685248. lia. }
  split. { apply res_int; [|unfold int_range; lia]. split; [lia|]. exists 1. lia. }
  split; [reflexivity|]. split. { eapply taken_char; [discriminate|left; reflexivity|]. split; [lia|exists 1; lia]. }
  split. { eapply (res_char Add 100 44 144); [unfold char_range; lia..|reflexivity|unfold char_range; lia|exists 1; lia]. }
  split; [reflexivity|]. split; [apply res_double; reflexivity|]. split; [unfold int_range; lia|]. split; reflexivity.
Qed.
(** The order of the operands matters: 3 * 0.5 is 0 and 0.5 * 3 is 1.5. *)
Example C101_not_symmetric : arith_new Mul (VInt 3) (VDouble half) = Ok (VInt 0) /\
  arith_new Mul (VDouble half) (VInt 3) = Ok (VDouble (S754_finite false 6755399441055744 (-52))).
Proof. split; reflexivity. Qed.
Example C102_ex : Forall digit [49; 50] /\ number_of [49; 50] = 12 /\ arith_new Add (VInt 1) (vstr [49; 50; 120]) = Ok (VInt 13) /\
  arith_in Add (VInt 1) (vstr [120; 121]) = (VInt 1, Throw "basic_ios::clear: iostream error") /\ arith_new Add (VInt 1) VNil = UB TypePun.
Proof. split; [repeat constructor; unfold digit; lia|]. split; [reflexivity|]. split; [reflexivity|]. split; reflexivity. Qed.
Example C103_ex : let x := VArr TVar [VInt 1; VMap [(VInt 0, VArr TLong [VLong 5; VLong 6])]; VChar 65] in
  let r := VArr TVar [VInt 3; VMap [(VInt 0, VArr TLong [VLong 7; VLong 8])]; VChar 67] in
  is_number (VInt 2) /\ every (fun v _ => holds v) x x /\ every (op_by Add (VInt 2)) x r /\ arith_in Add x (VInt 2) = (r, Ok tt).
Proof.
  cbv zeta. assert (B : forall x y r, holds x -> is_number x -> num_op Add x y = Ok r -> is_number y -> holds y -> every (op_by Add y) x r).
  { intros x y r H N E Ny Hy. apply every_number; auto. apply num_op_only; auto. }
  split; [exact Logic.I|]. split.
  { apply every_array. constructor; [apply every_number; [exact Logic.I|cbn; unfold int_range; lia]|]. constructor.
    - apply every_map. constructor; [|constructor]. split; [reflexivity|]. apply every_array. constructor; [apply every_number; [exact Logic.I|cbn; unfold long_range; lia]|].
      constructor; [apply every_number; [exact Logic.I|cbn; unfold long_range; lia]|constructor].
    - constructor; [apply every_number; [exact Logic.I|cbn; unfold char_range; lia]|constructor]. }
  split; [|reflexivity].
  apply every_array. constructor; [apply B; cbn; unfold int_range; auto; lia|]. constructor.
  - apply every_map. constructor; [|constructor]. split; [reflexivity|]. apply every_array. constructor; [apply B; cbn; unfold int_range, long_range; auto; lia|].
    constructor; [apply B; cbn; unfold int_range, long_range; auto; lia|constructor].
  - constructor; [apply B; cbn; unfold int_range, char_range; auto; lia|constructor].
Qed.
Example C104_ex : arith_new Mul (VArr TInt [VInt 2; VInt 3]) (VInt 5) = Ok (VArr TInt [VInt 10; VInt 15]) /\ Forall2 (op_by Mul (VInt 5)) [VInt 2; VInt 3] [VInt 10; VInt 15] /\
  arith_new Mul (VArr TVar [VInt 2; VInt 3]) (VInt 5) = UB TypePun /\ arith_in Mul (VArr TVar [VInt 2; VInt 3]) (VInt 5) = (VArr TVar [VInt 10; VInt 15], Ok tt) /\
  arith_new Mul (VMap [(VInt 0, VInt 2)]) (VInt 5) = UB TypePun /\ arith_new Mul (VArr TVar [VArr TInt [VInt 2]]) (VInt 5) = Throw "var::at(): uninitialised".
Proof.
  split; [reflexivity|]. split. { constructor; [|constructor; [|constructor]]; (exists (VInt 5); split; [apply taken_same; reflexivity|apply res_int; [reflexivity|unfold int_range; lia]]). }
  split; [reflexivity|]. split; [reflexivity|]. split; reflexivity.
Qed.
Example C105_ex : arith_in Add (VArr TVar [VInt 1; VArr TVar [VInt 2; VNil]; VInt 3]) (VInt 1) = (VArr TVar [VInt 2; VArr TVar [VInt 3; VNil]; VInt 3], Throw "var::atype(): Undefined") /\
  Forall2 (every (op_by Add (VInt 1))) [VInt 1] [VInt 2].
Proof.
  split; [reflexivity|]. constructor; [|constructor]. apply every_number; [exact Logic.I|]. exists (VInt 1). split; [apply taken_same; reflexivity|apply res_int; [reflexivity|unfold int_range; lia]].
Qed.
(** [1, 2, 3] += its first element is [2, 4, 5], not [2, 3, 4]. *)
Example C106_ex : arith_own Add TInt [VInt 1; VInt 2; VInt 3] 0 = (VArr TInt [VInt 2; VInt 4; VInt 5], Ok tt) /\
  op_by Add (VInt 1) (VInt 1) (VInt 2) /\ op_by Add (VInt 2) (VInt 2) (VInt 4) /\ op_by Add (VInt 2) (VInt 3) (VInt 5) /\
  arith_in Add (VArr TInt [VInt 1; VInt 2; VInt 3]) (VInt 1) = (VArr TInt [VInt 2; VInt 3; VInt 4], Ok tt).
Proof.
  split; [reflexivity|]. split; [|split; [|split; [|reflexivity]]]; (eexists; split; [apply taken_same; reflexivity|apply res_int; [reflexivity|unfold int_range; lia]]).
Qed.
Example C107_ex : arith_new Add (vstr [97; 98]) (vstr [99; 100]) = UB AssertFail /\ arith_in Add (vstr [97; 98]) (vstr [99; 100]) = (vstr [97; 98], Throw "Add::vector: Unknown type") /\
  arith_in Add (vstr [97; 98]) (VArr TInt []) = (vstr [97; 98], Throw "var::broadcast: types must match (for now)") /\
  arith_in Add (vstr []) (vstr [99; 100]) = (vstr [], UB DivByZero) /\ isspace 33 = false /\ arith_in Add (vstr [33; 34]) (vstr [33]) = (vstr [66; 67], Ok tt).
Proof. split; [reflexivity|]. split; [reflexivity|]. split; [reflexivity|]. split; [reflexivity|]. split; reflexivity. Qed.
Example C108_ex : valid_binary 53 1024 half = true /\ negate (VDouble half) = Ok (VDouble (S754_finite true 4503599627370496 (-53))) /\ negate (VInt 5) = Ok (VInt (-5)) /\ negate (VChar (-128)) = Ok (VChar (-128)).
Proof. split; [reflexivity|]. split; [reflexivity|]. split; reflexivity. Qed.
Example C109_ex : let f := SFopp in typed (VArr TVar [VDouble half; VFloat half]) /\ Forall2 (applied f f) [VDouble half; VFloat half] [VDouble (f half); VFloat (f half)] /\
  unary_new f f "u" (VArr TVar [VDouble half; VFloat half]) = Ok (VArr TVar [VDouble (f half); VFloat (f half)]) /\
  unary_in f f "u" (VArr TVar [VDouble half; VInt 1; VFloat half]) = (VArr TVar [VDouble (f half); VInt 1; VFloat half], Throw "u") /\
  unary_new f f "u" (VMap [(VInt 1, VFloat half)]) = Ok (VMap [(VNil, VFloat (f half))]) /\
  unary_in f f "u" (VMap [(VInt 1, VFloat half)]) = (VMap [(VInt 1, VFloat (f half))], Ok tt).
Proof.
  cbv zeta. split; [apply typed_vars; repeat (constructor; [apply typed_number; exact Logic.I|]); constructor|]. split; [repeat constructor|].
  split; [reflexivity|]. split; [reflexivity|]. split; reflexivity.
Qed.
