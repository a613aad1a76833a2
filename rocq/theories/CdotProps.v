(** Property C147: the dot product of vectors of complex numbers. *)
From Coq Require Import ZArith Bool List String Arith Lia Ring Ring_theory.
From Verif Require Import Base CplxModel CplxProps CdotModel.
Import ListNotations.
Local Open Scope string_scope.
Local Open Scope list_scope.
Local Notation length := List.length.

Section Props.
Variable K : reals.
Variables (plus minus times : tF K -> tF K -> tF K).
Local Notation dot := (dot K plus minus times).
Local Notation cf x := (@NCFloat K (fst x) (snd x)).

(** The sum, from left to right, of the products of the conjugates on the left and the numbers on the right. *)
Definition conj_product (x y : tF K * tF K) : tF K * tF K :=
  (plus (times (fst x) (fst y)) (times (snd x) (snd y)), minus (times (fst x) (snd y)) (times (snd x) (fst y))).
Definition cplus (x y : tF K * tF K) : tF K * tF K := (plus (fst x) (fst y), plus (snd x) (snd y)).
Fixpoint inner (s : tF K * tF K) (xs ys : list (tF K * tF K)) : tF K * tF K :=
  match xs, ys with x :: xs, y :: ys => inner (cplus s (conj_product x y)) xs ys | _, _ => s end.

Lemma cdotc_gives : forall m a b us vs xs ys pre pre' s, holds K m a ECFloat us -> holds K m b ECFloat vs -> us = pre ++ map (fun x => cf x) xs -> vs = pre' ++ map (fun x => cf x) ys ->
  length pre = length pre' -> length ys <= length xs ->
  cdotc K plus minus times m a b (seq (length pre) (length ys)) (cf s) = Ok (cf (inner s xs ys)).
Proof.
  intros m a b us vs xs ys. revert xs. induction ys as [|y ys IH]; intros xs pre pre' s Ha Hb Eu Ev L1 L2; cbn [length seq cdotc].
  - destruct xs; reflexivity.
  - destruct xs as [|x xs]; [cbn in L2; lia|].
    rewrite (holds_rd K m a ECFloat us (length pre) (cf x) Ha) by (rewrite Eu, nth_error_app2, Nat.sub_diag by lia; reflexivity).
    rewrite (holds_rd K m b ECFloat vs (length pre) (cf y) Hb) by (rewrite Ev, L1, nth_error_app2, Nat.sub_diag by lia; reflexivity). cbn [obind].
    change (cdotc_step K plus minus times (cf s) (cf x) (cf y)) with (cf (cplus s (conj_product x y))).
    specialize (IH xs (pre ++ [cf x]) (pre' ++ [cf y]) (cplus s (conj_product x y)) Ha Hb). rewrite app_length in IH. cbn [length] in IH. rewrite Nat.add_1_r in IH. cbn [inner]. apply IH.
    + rewrite <- app_assoc. exact Eu.
    + rewrite <- app_assoc. exact Ev.
    + rewrite app_length. cbn [length]. lia.
    + cbn [length] in L2. lia.
Qed.

(** * C147 *)
(** With cfloat it is that sum, over as many elements as the vector on the right has, and a number; the
    memory stays the same. *)
Theorem C147_cfloat : forall fuel m a b x xs ys, holds K m a ECFloat (map (fun x => cf x) (x :: xs)) -> holds K m b ECFloat (map (fun x => cf x) ys) ->
  length ys <> 1 -> length ys <= length (x :: xs) ->
  dot (S fuel) m (Arr a) (Arr b) = Ok (m, Imm (cf (inner (f0 K, f0 K) (x :: xs) ys))).
Proof.
  intros fuel m a b x xs ys Ha Hb N L. unfold dot, at_, dereference. cbn [obind assign].
  assert (R : rd K m a 0 = Ok (cf x)) by (apply (holds_rd K m a _ _ 0 (cf x) Ha); reflexivity). unfold dereference. rewrite R. cbn [obind number].
  cbn [dot_broadcast vsize atype]. rewrite (holds_arr _ _ _ _ _ Ha), (holds_arr _ _ _ _ _ Hb). cbn [obind snd fst]. rewrite !map_length.
  destruct (Nat.eqb_spec (length ys) 1) as [E|_]; [congruence|]. cbn [ety_eqb negb length map Nat.eqb].
  unfold dot_vector, ftype, vtype, atype, vsize. rewrite (holds_arr _ _ _ _ _ Ha), (holds_arr _ _ _ _ _ Hb). cbn [obind snd fst ety_eqb]. rewrite !map_length.
  pose proof (cdotc_gives m a b _ _ (x :: xs) ys [] [] (f0 K, f0 K) Ha Hb eq_refl eq_refl eq_refl L) as D. cbn [length fst snd] in D. rewrite D. reflexivity.
Qed.
(** A vector on the right that is longer is read beyond the end of that on the left. *)
Lemma cdotc_beyond : forall m a b us vs k n i s, holds K m a ECFloat us -> holds K m b ECFloat vs -> i + k = length us -> i + n = length vs -> k < n ->
  cdotc K plus minus times m a b (seq i n) s = UB OutOfBounds.
Proof.
  intros m a b us vs k. induction k as [|k IH]; intros n i s Ha Hb L1 L2 L; (destruct n as [|n]; [lia|]); cbn [seq cdotc].
  - unfold rd at 1. rewrite (holds_arr _ _ _ _ _ Ha). cbn [obind snd]. rewrite nth_error_map. replace (nth_error us i) with (@None (num K)); [reflexivity|]. symmetry. apply nth_error_None. lia.
  - destruct (nth_error us i) as [x|] eqn:E1; [|apply nth_error_None in E1; lia]. destruct (nth_error vs i) as [y|] eqn:E2; [|apply nth_error_None in E2; lia].
    rewrite (holds_rd _ _ _ _ _ _ _ Ha E1), (holds_rd _ _ _ _ _ _ _ Hb E2). cbn [obind]. apply IH; auto; lia.
Qed.
Theorem C147_longer : forall fuel m a b xs ys, holds K m a ECFloat xs -> holds K m b ECFloat ys -> xs <> [] -> length xs < length ys -> dot (S fuel) m (Arr a) (Arr b) = UB OutOfBounds.
Proof.
  intros fuel m a b xs ys Ha Hb N L. destruct xs as [|x xs]; [congruence|]. unfold dot, at_. cbn [dereference obind assign].
  rewrite (holds_rd K m a _ _ 0 x Ha eq_refl). cbn [obind]. pose proof (holds_ty K m a _ _ 0 x Ha eq_refl) as T. destruct x; try discriminate T. cbn [number].
  cbn [dot_broadcast vsize atype]. rewrite (holds_arr _ _ _ _ _ Ha), (holds_arr _ _ _ _ _ Hb). cbn [obind snd fst]. rewrite !map_length.
  destruct (Nat.eqb_spec (length ys) 1) as [E|_]; [cbn [length] in L; lia|]. cbn [ety_eqb negb length map Nat.eqb].
  unfold dot_vector, ftype, vtype, atype, vsize. rewrite (holds_arr _ _ _ _ _ Ha), (holds_arr _ _ _ _ _ Hb). cbn [obind snd fst ety_eqb]. rewrite !map_length.
  rewrite (cdotc_beyond m a b _ _ (length (NCFloat re im :: xs)) (length ys) 0 _ Ha Hb); auto.
Qed.
(** With cdouble an assertion fails, as an array of these does not count as an array there. *)
Theorem C147_cdouble : forall fuel m a b xs ys, holds K m a ECDouble xs -> holds K m b ECDouble ys -> xs <> [] -> length ys <> 1 -> dot (S fuel) m (Arr a) (Arr b) = UB AssertFail.
Proof.
  intros fuel m a b xs ys Ha Hb N L. destruct xs as [|x xs]; [congruence|]. unfold dot, at_. cbn [dereference obind assign].
  rewrite (holds_rd K m a _ _ 0 x Ha eq_refl). cbn [obind]. pose proof (holds_ty K m a _ _ 0 x Ha eq_refl) as T. destruct x; try discriminate T. cbn [number].
  pose proof (holds_app K m [(ECDouble, [Some (NCDouble re im)])] _ _ _ Ha) as Ha'. pose proof (holds_app K m [(ECDouble, [Some (NCDouble re im)])] _ _ _ Hb) as Hb'.
  cbn [dot_broadcast vsize atype]. rewrite (holds_arr _ _ _ _ _ Ha'), (holds_arr _ _ _ _ _ Hb'). cbn [obind snd fst]. rewrite !map_length.
  destruct (Nat.eqb_spec (length ys) 1) as [E|_]; [congruence|]. cbn [ety_eqb negb length map Nat.eqb].
  unfold dot_vector, ftype, vtype, atype. rewrite (holds_arr _ _ _ _ _ Ha'). reflexivity.
Qed.
Theorem C147_types : forall fuel m a b t u xs ys, holds K m a t xs -> holds K m b u ys -> xs <> [] -> t <> u -> length ys <> 1 ->
  dot (S fuel) m (Arr a) (Arr b) = Throw "var::broadcast: types must match (for now)".
Proof.
  intros fuel m a b t u xs ys Ha Hb N T L. destruct xs as [|x xs]; [congruence|]. unfold dot, at_. cbn [dereference obind assign].
  rewrite (holds_rd K m a _ _ 0 x Ha eq_refl). cbn [obind].
  assert (X : exists w r, number K m x = (m ++ w, r)) by (destruct x; cbn [number]; eauto; exists []; rewrite app_nil_r; eauto). destruct X as (w & r & ->).
  pose proof (holds_app K m w _ _ _ Ha) as Ha'. pose proof (holds_app K m w _ _ _ Hb) as Hb'.
  cbn [dot_broadcast vsize atype]. rewrite (holds_arr _ _ _ _ _ Ha'), (holds_arr _ _ _ _ _ Hb'). cbn [obind snd fst]. rewrite !map_length.
  destruct (Nat.eqb_spec (length ys) 1) as [E|_]; [congruence|]. destruct (ety_eqb t u) eqn:E; [apply ety_eqb_iff in E; congruence|reflexivity].
Qed.

(** A vector of one number on the right: the call never returns. *)
Definition one (m : store K) (x : cvar K) : Prop :=
  match x with
  | Nil => False
  | Imm _ => True
  | Arr a => exists t x xs, holds K m a t (x :: xs)
  | Ref a i => exists t xs x, holds K m a t xs /\ nth_error xs i = Some x
  end.
Definition single (m : store K) (y : cvar K) : Prop := match y with Imm _ => True | Arr b => exists t y, holds K m b t [y] | _ => False end.
Lemma one_app : forall m w x, one m x -> one (m ++ w) x.
Proof. intros m w [|n|a|a i]; cbn [one]; auto. intros (t & x & xs & H). exists t, x, xs. apply holds_app. exact H. intros (t & xs & x & H & E). exists t, xs, x. split; [apply holds_app; exact H|exact E]. Qed.
Lemma single_app : forall m w x, single m x -> single (m ++ w) x.
Proof. intros m w [|n|a|a i]; cbn [single]; auto. intros (t & x & H). exists t, x. apply holds_app. exact H. Qed.
Lemma one_at : forall m x, one m x -> exists w v, at_ K m x 0 = Ok (m ++ w, v) /\ one (m ++ w) v.
Proof.
  intros m [|n|a|a i]; cbn [one]; [intros []| | |].
  - intros _. exists [], (Imm n). rewrite app_nil_r. split; [reflexivity|exact I].
  - intros (t & x & xs & H). exists [], (Ref a 0). rewrite app_nil_r. split; [reflexivity|]. exists t, (x :: xs), x. auto.
  - intros (t & xs & x & H & E). unfold at_, dereference. rewrite (holds_rd _ _ _ _ _ _ _ H E). cbn [obind].
    destruct x as [z|f|d|re im|re im]; cbn [number]; try (exists []; eexists; rewrite app_nil_r; split; [reflexivity|exact I]).
    exists [(ECDouble, [Some (NCDouble re im)])], (Ref (length m) 0). split; [reflexivity|]. exists ECDouble, [NCDouble re im], (NCDouble re im). split; [|reflexivity]. apply holds_last. reflexivity.
Qed.
Lemma broadcast_never : forall y fuel m x o, one m x -> one m o -> single m y -> dot_broadcast K plus minus times fuel m x y o = Fuel.
Proof.
  intros y. induction fuel as [|fuel IH]; intros m x o Hx Ho Hy; [reflexivity|]. cbn [dot_broadcast].
  assert (Sx : exists n, vsize K m x = Ok (S n)).
  { destruct x as [|n|a|a i]; [destruct Hx|exists 0; reflexivity| |exists 0; reflexivity]. destruct Hx as (t & x0 & xs & H). exists (length xs). cbn [vsize]. rewrite (holds_arr _ _ _ _ _ H). cbn. rewrite map_length. reflexivity. }
  assert (Sy : vsize K m y = Ok 1).
  { destruct y as [|n|a|a i]; [destruct Hy|reflexivity| |destruct Hy]. destruct Hy as (t & x0 & H). cbn [vsize]. rewrite (holds_arr _ _ _ _ _ H). reflexivity. }
  destruct Sx as (n & ->). rewrite Sy. cbn [obind Nat.eqb seq each].
  destruct (one_at m o Ho) as (w & tmp & -> & Ht). cbn [obind]. destruct (one_at (m ++ w) x (one_app _ _ _ Hx)) as (w2 & xi & -> & Hxi). cbn [obind].
  rewrite IH; [reflexivity|exact Hxi|apply one_app; exact Ht|apply single_app, single_app; exact Hy].
Qed.
Theorem C147_one_number : forall fuel m a t x xs y, holds K m a t (x :: xs) -> single m y -> dot fuel m (Arr a) y = Fuel.
Proof.
  intros fuel m a t x xs y Ha Hy. unfold dot, at_. cbn [dereference obind assign]. rewrite (holds_rd K m a _ _ 0 x Ha eq_refl). cbn [obind].
  assert (X : exists w r, number K m x = (m ++ w, r) /\ one (m ++ w) r).
  { destruct x; cbn [number]; try (exists []; eexists; rewrite app_nil_r; split; [reflexivity|exact I]). eexists. eexists. split; [reflexivity|]. exists ECDouble, (NCDouble re im), []. apply holds_last. reflexivity. }
  destruct X as (w & r & -> & Hr). apply broadcast_never; [|exact Hr|apply single_app; exact Hy]. apply one_app. exists t, x, xs. exact Ha.
Qed.

(** In exact arithmetic, exchanging the vectors conjugates the result, and the product of a vector with
    itself is real. *)
Variables (one_ : tF K) (opp : tF K -> tF K).
Hypothesis Rth : ring_theory (f0 K) one_ plus times minus opp eq.
Add Ring KRing : Rth.
Lemma inner_swap : forall xs ys s, inner (fst s, opp (snd s)) ys xs = (fst (inner s xs ys), opp (snd (inner s xs ys))).
Proof.
  induction xs as [|x xs IH]; intros ys s; destruct ys as [|y ys]; cbn [inner]; try reflexivity.
  rewrite <- IH. f_equal. unfold cplus, conj_product. cbn [fst snd]. f_equal; ring.
Qed.
Theorem C147_exchanged : forall fuel m a b x xs y ys r s, holds K m a ECFloat (map (fun x => cf x) (x :: xs)) -> holds K m b ECFloat (map (fun x => cf x) (y :: ys)) ->
  length xs = length ys -> xs <> [] -> dot (S fuel) m (Arr a) (Arr b) = Ok (m, Imm (NCFloat r s)) -> dot (S fuel) m (Arr b) (Arr a) = Ok (m, Imm (NCFloat r (opp s))).
Proof.
  intros fuel m a b x xs y ys r s Ha Hb L N E. assert (L2 : length xs <> 0) by (destruct xs; [congruence|discriminate]).
  rewrite (C147_cfloat fuel m a b x xs (y :: ys) Ha Hb) in E by (cbn [length]; lia).
  rewrite (C147_cfloat fuel m b a y ys (x :: xs) Hb Ha) by (cbn [length]; lia).
  pose proof (inner_swap (x :: xs) (y :: ys) (f0 K, f0 K)) as S. cbn [fst snd] in S. replace (opp (f0 K)) with (f0 K) in S by ring. rewrite S. cbn [fst snd].
  clear S; remember (inner (f0 K, f0 K) (x :: xs) (y :: ys)) as v eqn:V in *. clear V. injection E as Er Es. rewrite Er, Es. reflexivity.
Qed.
Lemma inner_self : forall xs s, snd (inner s xs xs) = snd s.
Proof. induction xs as [|x xs IH]; intros s; cbn [inner]; [reflexivity|]. rewrite IH. unfold cplus, conj_product. cbn [fst snd]. ring. Qed.
Theorem C147_itself : forall fuel m a x xs, holds K m a ECFloat (map (fun x => cf x) (x :: xs)) -> xs <> [] ->
  exists r, dot (S fuel) m (Arr a) (Arr a) = Ok (m, Imm (NCFloat r (f0 K))).
Proof.
  intros fuel m a x xs Ha N. assert (L2 : length xs <> 0) by (destruct xs; [congruence|discriminate]). rewrite (C147_cfloat fuel m a a x xs (x :: xs) Ha Ha) by (cbn [length]; lia).
  eexists. rewrite inner_self. reflexivity.
Qed.
End Props.

(** Whole numbers for the real ones; the arrays of C126: (1+2i, 3+4i) and (1+2i, 3+5i) of cfloat, others of cdouble. *)
Local Open Scope Z_scope.
Local Notation wdot := (CdotModel.dot wholes Z.add Z.sub Z.mul).
Example C147_example : holds wholes w_mem 2 ECFloat (map (fun x => @NCFloat wholes (fst x) (snd x)) [(1, 2); (3, 4)]) /\
  wdot 1 w_mem (Arr 2) (Arr 3) = Ok (w_mem, Imm (@NCFloat wholes 34 3)) /\ wdot 1 w_mem (Arr 3) (Arr 2) = Ok (w_mem, Imm (@NCFloat wholes 34 (-3))) /\
  wdot 1 w_mem (Arr 2) (Arr 2) = Ok (w_mem, Imm (@NCFloat wholes 30 0)) /\
  wdot 1 w_mem (Arr 0) (Arr 0) = UB AssertFail /\ wdot 9 w_mem (Arr 2) (Arr 1) = Fuel /\ wdot 1 w_mem (Arr 2) (Arr 0) = Throw "var::broadcast: types must match (for now)" /\
  wdot 1 (w_mem ++ [(ECFloat, map Some [cf 1 1; cf 1 1; cf 1 1])]) (Arr 2) (Arr 4) = UB OutOfBounds.
Proof. split; [w_holds|]. repeat split. Qed.
