(** Properties of [roots]: C117. *)
From Coq Require Import ZArith Bool List String Lia Qcanon Ring Ring_theory Field_theory.
From Verif Require Import Base NumModel StrModel RootsModel RootsSpec RootsProof.
Import ListNotations.
Local Open Scope nat_scope.
Local Open Scope list_scope.
Local Notation length := List.length.

(** * C117 *)
(** The matrix, whatever the arithmetic, e.g. that of float: in row [r] and column [k], the
    coefficients over the first one, negated, in row 0; below that ones left of the diagonal. *)
Theorem C117_matrix : forall F (zero one : F) mul div opp c0 c, 2 <= length c -> in_int (Z.of_nat (length c) * Z.of_nat (length c)) = true ->
  exists a, companion zero one mul div opp (c0 :: c) (length c) = Ok a /\ length a = length c * length c /\
    forall r k, r < length c -> k < length c -> forall x, nth_error c k = Some x ->
      nth_error a (r * length c + k) = Some (if Nat.eqb r 0 then mul (div x c0) (opp one) else if Nat.eqb r (k + 1) then one else zero).
Proof.
  intros F zero one mul div opp c0 c L I. destruct (companion_gives zero one mul div opp (c0 :: c) c0 (length c)) as (a & E & La & H); auto.
  - simpl. lia.
  - exists a. split; auto. split; auto. intros r k R K x X. rewrite H by auto. unfold entry. rewrite Nat.add_1_r. simpl. rewrite X. destruct (Nat.eqb r 0), (Nat.eqb r (S k)); reflexivity.
Qed.

Section Exact.
Context {F K : Type}.
Variables (f0 f1 : F) (fadd fmul fsub fdiv : F -> F -> F) (fopp finv : F -> F).
Variables (k0 k1 : K) (kadd kmul ksub : K -> K -> K) (kopp : K -> K) (phi : F -> K).
Hypothesis X : exact f0 f1 fadd fmul fsub fdiv fopp finv k0 k1 kadd kmul ksub kopp phi.
Local Notation root c x := (poly k0 k1 kadd kmul phi c x = k0).
Local Notation eigen := (eigenvalue f0 k0 kadd kmul phi).
Variable complex : F -> F -> K.
Variable geev : nat -> list F -> list F * list F.
Local Notation roots := (roots_vector f0 f1 fmul fdiv fopp geev).
Local Notation matrix c n := (companion f0 f1 fmul fdiv fopp c n).
(** The eigenvalues the library finds. *)
Definition found (n : nat) (a : list F) (x : K) : Prop := exists re im, In (re, im) (combine (fst (geev n a)) (snd (geev n a))) /\ x = complex re im.

Lemma roots_gives : forall c0 c, 2 <= length c -> in_int (Z.of_nat (length c) * Z.of_nat (length c)) = true ->
  exists a rs, matrix (c0 :: c) (length c) = Ok a /\ roots (c0 :: c) = Ok rs /\ length a = length c * length c /\
    (forall r k, r < length c -> k < length c -> nth_error a (r * length c + k) = entry f0 f1 fmul fdiv fopp (c0 :: c) c0 r k) /\
    rs = combine (fst (geev (length c) a)) (snd (geev (length c) a)).
Proof.
  intros c0 c L I. destruct (companion_gives f0 f1 fmul fdiv fopp (c0 :: c) c0 (length c)) as (a & E & La & H); auto; [simpl; lia|].
  exists a, (combine (fst (geev (length c) a)) (snd (geev (length c) a))). split; auto. split; auto.
  unfold roots_vector. replace (length (c0 :: c) - 1) with (length c) by (simpl; lia). rewrite E. simpl. destruct (geev (length c) a); reflexivity.
Qed.
(** In exact arithmetic, if what the library finds for the matrix are eigenvalues, the results are
    roots; if it finds all of them, all roots are there. *)
Theorem C117_results_are_roots : forall c0 c, c0 <> f0 -> 2 <= length c -> in_int (Z.of_nat (length c) * Z.of_nat (length c)) = true ->
  (forall a x, matrix (c0 :: c) (length c) = Ok a -> found (length c) a x -> eigen (length c) a x) ->
  exists rs, roots (c0 :: c) = Ok rs /\ forall re im, In (re, im) rs -> root (c0 :: c) (complex re im).
Proof.
  intros c0 c C0 L I G. destruct (roots_gives c0 c L I) as (a & rs & E & R & La & H & ->). exists (combine (fst (geev (length c) a)) (snd (geev (length c) a))). split; auto.
  intros re im N. destruct X. apply (eigen_root f0 f1 fadd fmul fsub fdiv fopp finv k0 k1 kadd kmul ksub kopp phi) with (c0 := c0) (n := length c) (a := a); auto; [simpl; lia|].
  apply G; auto. exists re, im. auto.
Qed.
Theorem C117_roots_are_results : forall c0 c, c0 <> f0 -> 2 <= length c -> in_int (Z.of_nat (length c) * Z.of_nat (length c)) = true ->
  (forall a x, matrix (c0 :: c) (length c) = Ok a -> eigen (length c) a x -> found (length c) a x) ->
  exists rs, roots (c0 :: c) = Ok rs /\ forall x, root (c0 :: c) x -> exists re im, In (re, im) rs /\ x = complex re im.
Proof.
  intros c0 c C0 L I G. destruct (roots_gives c0 c L I) as (a & rs & E & R & La & H & ->). exists (combine (fst (geev (length c) a)) (snd (geev (length c) a))). split; auto.
  intros x Rx. destruct X. apply (G a x E). apply (root_eigen f0 f1 fadd fmul fsub fdiv fopp finv k0 k1 kadd kmul ksub kopp phi) with (c := c0 :: c) (c0 := c0); auto. simpl; lia.
Qed.
(** The eigenvalues of the matrix are the roots. *)
Theorem C117_eigenvalues : forall c0 c, c0 <> f0 -> 2 <= length c -> in_int (Z.of_nat (length c) * Z.of_nat (length c)) = true ->
  exists a, matrix (c0 :: c) (length c) = Ok a /\ forall x, eigen (length c) a x <-> root (c0 :: c) x.
Proof.
  intros c0 c C0 L I. destruct (companion_gives f0 f1 fmul fdiv fopp (c0 :: c) c0 (length c)) as (a & E & La & H); auto; [simpl; lia|]. exists a. split; auto. intros x. destruct X. split.
  - apply (eigen_root f0 f1 fadd fmul fsub fdiv fopp finv k0 k1 kadd kmul ksub kopp phi) with (c0 := c0); auto. simpl; lia.
  - apply (root_eigen f0 f1 fadd fmul fsub fdiv fopp finv k0 k1 kadd kmul ksub kopp phi) with (c0 := c0); auto. simpl; lia.
Qed.
End Exact.

(** A polynomial of degree one has a root, but [roots] throws. *)
Theorem C117_linear_throws : forall F (zero one : F) mul div opp geev c0 c1,
  roots_vector zero one mul div opp geev [c0; c1] = Throw "var::view: Input not an array".
Proof. reflexivity. Qed.

(** * Example: complex numbers with rational parts, and the polynomial [2 x^2 + 2] *)
Local Open Scope Qc_scope.
Definition gauss : Type := (Qc * Qc)%type.
Definition g0 : gauss := (0, 0).
Definition g1 : gauss := (1, 0).
Definition gadd (x y : gauss) : gauss := (fst x + fst y, snd x + snd y).
Definition gmul (x y : gauss) : gauss := (fst x * fst y - snd x * snd y, fst x * snd y + snd x * fst y).
Definition gopp (x : gauss) : gauss := (- fst x, - snd x).
Definition gsub (x y : gauss) : gauss := gadd x (gopp y).
Lemma square_pos : forall q : Qc, 0 <= q * q.
Proof.
  intros q. destruct (Qclt_le_dec q 0) as [L|L].
  - replace (q * q) with ((- q) * (- q)) by ring. replace 0 with (0 * (- q)) by ring. assert (P : 0 <= - q) by (apply Qclt_le_weak in L; apply Qcle_minus_iff in L; rewrite Qcplus_0_l in L; exact L).
    apply Qcmult_le_compat_r; auto.
  - replace 0 with (0 * q) by ring. apply Qcmult_le_compat_r; auto.
Qed.
Lemma squares_zero : forall a b : Qc, a * a + b * b = 0 -> a = 0 /\ b = 0.
Proof.
  assert (A : forall a b : Qc, a * a + b * b = 0 -> a = 0).
  { intros a b H. assert (E : a * a = 0).
    { apply Qcle_antisym; [|apply square_pos]. replace (a * a) with ((a * a + b * b) + - (b * b)) by ring. rewrite H. replace 0 with (- 0) at 2 by ring. rewrite Qcplus_0_l. apply Qcopp_le_compat. apply square_pos. }
    destruct (Qcmult_integral _ _ E); auto. }
  intros a b H. split; [apply (A a b H)|]. apply (A b a). rewrite <- H. ring.
Qed.
Lemma gauss_exact : exact 0 1 Qcplus Qcmult Qcminus Qcdiv Qcopp Qcinv g0 g1 gadd gmul gsub gopp (fun q => (q, 0)).
Proof.
  constructor.
  - exact Qcft.
  - constructor; intros; unfold g0, g1, gadd, gmul, gsub, gopp in *; try reflexivity; repeat match goal with x : gauss |- _ => destruct x end; simpl; try unfold gadd; simpl; try (f_equal; ring).
  - intros [a b] [c d] E. pose proof (f_equal fst E) as E1. pose proof (f_equal snd E) as E2. unfold gmul, g0 in *. cbn [fst snd] in *.
    assert (P : (a * a + b * b) * (c * c + d * d) = 0).
    { transitivity ((a * c - b * d) * (a * c - b * d) + (a * d + b * c) * (a * d + b * c)); [ring|]. rewrite E1, E2. ring. }
    destruct (Qcmult_integral _ _ P) as [Q|Q]; destruct (squares_zero _ _ Q) as [-> ->]; auto.
  - discriminate.
  - reflexivity.
  - reflexivity.
  - intros x y. unfold gmul. simpl. f_equal; ring.
  - intros x. unfold gopp. simpl. f_equal; ring.
Qed.
Definition two : Qc := 1 + 1.
(** A library that knows the eigenvalues of one matrix. *)
Definition knows (n : nat) (a : list Qc) : list Qc * list Qc := ([0; 0], [1; - (1)]).
Lemma matrix_of_example : companion 0 1 Qcmult Qcdiv Qcopp [two; 0; two] 2 = Ok [0; - (1); 1; 0].
Proof. vm_compute. reflexivity. Qed.
Example C117_example :
  (exists rs, roots_vector 0 1 Qcmult Qcdiv Qcopp knows [two; 0; two] = Ok rs /\ rs = [(0, 1); (0, - (1))] /\
     forall re im, In (re, im) rs -> poly g0 g1 gadd gmul (fun q => (q, 0)) [two; 0; two] (re, im) = g0) /\
  (exists rs, roots_vector 0 1 Qcmult Qcdiv Qcopp knows [two; 0; two] = Ok rs /\
     forall x, poly g0 g1 gadd gmul (fun q => (q, 0)) [two; 0; two] x = g0 -> exists re im, In (re, im) rs /\ x = (re, im)).
Proof.
  assert (T : two <> 0) by discriminate.
  split.
  - destruct (C117_results_are_roots _ _ _ _ _ _ _ _ _ _ _ _ _ _ _ gauss_exact (fun re im => (re, im)) knows two [0; two] T ltac:(simpl; lia) eq_refl) as (rs & E & H).
    + intros a x M (re & im & N & ->). simpl length in *. rewrite matrix_of_example in M. injection M as <-. simpl in N.
      destruct N as [N|[N|[]]]; injection N as <- <-.
      * exists (fun i => match i with O => g1 | _ => (0, 1) end). split; [exists 0%nat; split; [lia|discriminate]|]. intros [|[|i]] Hi; [reflexivity|reflexivity|lia].
      * exists (fun i => match i with O => g1 | _ => (0, - (1)) end). split; [exists 0%nat; split; [lia|discriminate]|]. intros [|[|i]] Hi; [reflexivity|reflexivity|lia].
    + exists rs. split; auto. split; auto. change (roots_vector 0 1 Qcmult Qcdiv Qcopp knows [two; 0; two]) with (obind (companion 0 1 Qcmult Qcdiv Qcopp [two; 0; two] 2) (fun a => Ok [(0, 1); (0, - (1))])) in E.
      rewrite matrix_of_example in E. injection E as <-. reflexivity.
  - apply (C117_roots_are_results _ _ _ _ _ _ _ _ _ _ _ _ _ _ _ gauss_exact (fun re im => (re, im)) knows two [0; two] T ltac:(simpl; lia) eq_refl).
    intros a x M Eg. destruct (C117_eigenvalues _ _ _ _ _ _ _ _ _ _ _ _ _ _ _ gauss_exact two [0; two] T ltac:(simpl; lia) eq_refl) as (a' & M' & H).
    assert (a' = a) by congruence. subst a'. apply H in Eg. destruct x as [p q]. pose proof (f_equal fst Eg) as E1. pose proof (f_equal snd Eg) as E2. cbn [poly pow List.length gadd gmul g0 g1 fst snd] in E1, E2.
    assert (P : two * (1 + (p * p - q * q)) = 0) by (rewrite <- E1; ring). assert (Q : two * (two * (p * q)) = 0) by (rewrite <- E2; unfold two; ring).
    destruct (Qcmult_integral _ _ P) as [Y|P']; [discriminate|]. destruct (Qcmult_integral _ _ Q) as [Y|Q']; [discriminate|]. destruct (Qcmult_integral _ _ Q') as [Y|Z]; [discriminate|].
    assert (p = 0).
    { destruct (Qcmult_integral _ _ Z) as [|Y]; auto. subst q. exfalso. assert (S : 1 * 1 + p * p = 0) by (rewrite <- P'; ring). destruct (squares_zero _ _ S) as [Y _]. discriminate. }
    subst p. assert (R : (1 - q) * (1 + q) = 0) by (rewrite <- P'; ring). destruct (Qcmult_integral _ _ R) as [Y|Y].
    + exists 0, 1. split; [left; reflexivity|]. f_equal. transitivity (1 - (1 - q)); [ring|]. rewrite Y. ring.
    + exists 0, (- (1)). split; [right; left; reflexivity|]. f_equal. transitivity ((1 + q) - 1); [ring|]. rewrite Y. ring.
Qed.
