(** Properties of the calls of BLAS: C118. *)
From Coq Require Import ZArith Bool List String Lia Ring Ring_theory.
From Verif Require Import Base StrModel RootsModel RootsSpec BlasModel BlasProof.
Import ListNotations.
Local Open Scope nat_scope.
Local Open Scope list_scope.
Local Notation length := List.length.

Section Blas.
Context {F : Type}.
Variables (zero one : F) (add mul : F -> F -> F) (eqb : F -> F -> bool).
Local Notation gemm := (gemm zero one add mul eqb).

(** [beta z] as BLAS makes it. *)
Definition scaled (beta z : F) : F := if eqb beta zero then zero else if eqb beta one then z else mul beta z.
(** Row [r] of [a] times column [k] of [b], rows of [iK] and of [iN] cells, added to [z]. *)
Definition row_times_column (alpha : F) (a b : list F) (iN iK r k : nat) (z : F) : F :=
  fold_left (fun s l => add s (mul (mul alpha (nth (r * iK + l) a zero)) (nth (l * iN + k) b zero))) (seq 0 iK) z.

Lemma scale_gives : forall beta iN j len c, length c = len -> j * iN + iN <= len ->
  exists c', (if eqb beta zero then count iN 0 (fun i c => cell c (i + j * iN) (fun _ => zero)) c
              else if eqb beta one then Ok c
              else count iN 0 (fun i c => cell c (i + j * iN) (fun x => mul beta x)) c) = Ok c' /\
    changed (fun p x => if Nat.leb (j * iN) p && Nat.ltb p (j * iN + iN) then scaled beta x else x) c c'.
Proof.
  intros beta iN j len c L H. unfold scaled. destruct (eqb beta zero).
  - apply (column_changed _ (fun _ _ => zero) len iN (j * iN) c L H). auto.
  - destruct (eqb beta one).
    + exists c. split; auto. eapply changed_ext; [|apply changed_id]. intros p x _. destruct (_ && _); reflexivity.
    + apply (column_changed _ (fun _ x => mul beta x) len iN (j * iN) c L H). auto.
Qed.
Lemma in_row : forall iN r k j, k < iN -> Nat.leb (j * iN) (r * iN + k) && Nat.ltb (r * iN + k) (j * iN + iN) = Nat.eqb j r.
Proof.
  intros iN r k j K. destruct (Nat.eqb_spec j r) as [E|D]; destruct (Nat.leb_spec (j * iN) (r * iN + k)); destruct (Nat.ltb_spec (r * iN + k) (j * iN + iN)); simpl; auto; try nia.
Qed.

(** * C118: [gemm] multiplies matrices stored row after row *)
(** Whatever the arithmetic: the sum is made in the order of the columns of [a]. *)
Theorem C118_gemm : forall iM iN iK alpha a b beta c, 1 <= iN -> 1 <= iK -> length a = iM * iK -> length b = iK * iN -> length c = iM * iN -> eqb alpha zero = false ->
  exists c', gemm iM iN iK alpha a b beta c = Ok c' /\ length c' = iM * iN /\
    forall r k z, r < iM -> k < iN -> nth_error c (r * iN + k) = Some z ->
      nth_error c' (r * iN + k) = Some (row_times_column alpha a b iN iK r k (scaled beta z)).
Proof.
  intros iM iN iK alpha a b beta c N K La Lb Lc Al. unfold gemm, xgemm.
  destruct (Nat.ltb_spec iN (Nat.max 1 iN)); [lia|]. destruct (Nat.ltb_spec iK (Nat.max 1 iK)); [lia|]. cbn [orb]. destruct (Nat.eqb_spec iN 0); [lia|]. destruct (Nat.eqb_spec iK 0); [lia|]. rewrite Al. cbn [orb andb].
  destruct (Nat.eqb_spec iM 0) as [->|M0]; [exists c; split; auto; split; auto; intros; lia|]. cbn [orb].
  set (step := fun (j p : nat) (x : F) => if Nat.leb (j * iN) p && Nat.ltb p (j * iN + iN) then row_times_column alpha a b iN iK j (p - j * iN) (scaled beta x) else x).
  destruct (count_changed (fun j c => obind (if eqb beta zero then count iN 0 (fun i c => cell c (i + j * iN) (fun _ => zero)) c else if eqb beta one then Ok c else count iN 0 (fun i c => cell c (i + j * iN) (fun x => mul beta x)) c)
     (fun c => count iK 0 (fun l c => obind (rd a (l + j * iK)) (fun y => count iN 0 (fun i c => obind (rd b (i + l * iN)) (fun x => cell c (i + j * iN) (fun z => add z (mul (mul alpha y) x)))) c)) c)) step (iM * iN) iM 0 c Lc) as (c' & E & C).
  - intros j c1 Hj L1. assert (J : j * iN + iN <= iM * iN) by nia.
    destruct (scale_gives beta iN j _ c1 L1 J) as (c2 & E2 & C2). rewrite E2. cbn [obind].
    assert (L2 : length c2 = iM * iN) by (destruct C2; congruence).
    destruct (count_changed (fun l c => obind (rd a (l + j * iK)) (fun y => count iN 0 (fun i c => obind (rd b (i + l * iN)) (fun x => cell c (i + j * iN) (fun z => add z (mul (mul alpha y) x)))) c))
      (fun l p x => if Nat.leb (j * iN) p && Nat.ltb p (j * iN + iN) then add x (mul (mul alpha (nth (j * iK + l) a zero)) (nth (l * iN + (p - j * iN)) b zero)) else x) (iM * iN) iK 0 c2 L2) as (c3 & E3 & C3).
    { intros l c3 Hl L3. unfold rd at 1. rewrite (nth_error_nth' a zero) by (rewrite La; nia). cbn [obind]. rewrite (Nat.add_comm l).
      destruct (column_changed (fun i c => obind (rd b (i + l * iN)) (fun x => cell c (i + j * iN) (fun z => add z (mul (mul alpha (nth (j * iK + l) a zero)) x))))
        (fun i z => add z (mul (mul alpha (nth (j * iK + l) a zero)) (nth (l * iN + i) b zero))) (iM * iN) iN (j * iN) c3 L3 J) as (c4 & E4 & C4).
      - intros i c4 Hi L4. unfold rd. rewrite (nth_error_nth' b zero) by (rewrite Lb; nia). cbn [obind]. rewrite (Nat.add_comm i (l * iN)). reflexivity.
      - exists c4. split; [exact E4|exact C4]. }
    exists c3. split; [exact E3|]. eapply changed_ext; [|exact (changed_trans _ _ _ _ _ C2 C3)]. intros p x Hp. unfold step, row_times_column. cbv beta.
    destruct (Nat.leb (j * iN) p && Nat.ltb p (j * iN + iN)) eqn:B; [reflexivity|]. apply fold_none. auto.
  - exists c'. split; [exact E|]. destruct C as [L' C]. split; [congruence|]. intros r k z R Kk Nz. rewrite (C _ _ Nz). f_equal. unfold step.
    rewrite (fold_one _ iM 0 r) by (first [lia | intros i y Hi D; cbv beta; rewrite in_row by auto; destruct (Nat.eqb_spec i r); [lia|reflexivity]]).
    cbv beta. rewrite in_row, Nat.eqb_refl by auto. f_equal. lia.
Qed.

(** With [alpha] 1 and [beta] 0, as [Dot] calls it: the old contents do not matter. *)
Theorem C118_product : (forall x, mul one x = x) -> eqb one zero = false -> eqb zero zero = true ->
  forall iM iN iK a b c, 1 <= iN -> 1 <= iK -> length a = iM * iK -> length b = iK * iN -> length c = iM * iN ->
  exists c', gemm iM iN iK one a b zero c = Ok c' /\ length c' = iM * iN /\
    forall r k, r < iM -> k < iN ->
      nth_error c' (r * iN + k) = Some (fold_left (fun s l => add s (mul (nth (r * iK + l) a zero) (nth (l * iN + k) b zero))) (seq 0 iK) zero).
Proof.
  intros M1 E1 E0 iM iN iK a b c N K La Lb Lc. destruct (C118_gemm iM iN iK one a b zero c N K La Lb Lc E1) as (c' & E & L & H). exists c'. split; auto. split; auto.
  intros r k R Kk. rewrite (H r k (nth (r * iN + k) c zero) R Kk) by (apply nth_error_nth'; nia). f_equal. unfold row_times_column, scaled. rewrite E0. apply fold_ext. intros y l _. rewrite M1. reflexivity.
Qed.
(** BLAS stops the program if there is an empty row. *)
Theorem C118_empty_stops : forall iM iN iK alpha a b beta c, iN = 0 \/ iK = 0 -> gemm iM iN iK alpha a b beta c = Throw xerbla.
Proof.
  intros iM iN iK alpha a b beta c H. unfold gemm, xgemm. destruct (Nat.ltb_spec iN (Nat.max 1 iN)); auto. destruct (Nat.ltb_spec iK (Nat.max 1 iK)); auto. lia.
Qed.
(** The band matrices must be diagonal: with another diagonal the program stops. *)
Theorem C118_band_stops : forall iN iK alpha a x beta y, 1 <= iK -> tbmv mul iN iK a x = Throw xerbla /\ sbmv zero one add mul eqb iN iK alpha a x beta y = Throw xerbla.
Proof. intros iN iK alpha a x beta y H. unfold tbmv, sbmv. destruct (Nat.ltb_spec 1 (iK + 1)); [auto|lia]. Qed.
(** The product of the elements, in place and to another array. *)
Theorem C118_tbmv : forall n a x, length a = n -> length x = n -> exists y, tbmv mul n 0 a x = Ok y /\ length y = n /\
  forall i u d, nth_error x i = Some u -> nth_error a i = Some d -> nth_error y i = Some (mul u d).
Proof.
  intros n a x La Lx. unfold tbmv. cbn [Nat.ltb Nat.leb Nat.add].
  destruct (column_changed (fun j x => obind (rd a j) (fun d => cell x j (fun t => mul t d))) (fun i t => mul t (nth i a zero)) n n 0 x Lx) as (y & E & L & H); [lia| |].
  - intros i b Hi Lb. unfold rd. rewrite (nth_error_nth' a zero) by lia. rewrite Nat.add_0_r. reflexivity.
  - exists y. split; [exact E|]. split; [congruence|]. intros i u d Nu Nd. rewrite (H _ _ Nu). assert (i < n) by (rewrite <- Lx; apply nth_error_Some; congruence).
    destruct (Nat.ltb_spec i (0 + n)); [|lia]. simpl. rewrite Nat.sub_0_r. erewrite nth_error_nth; eauto.
Qed.
Theorem C118_sbmv : (forall x, mul one x = x) -> eqb one zero = false -> eqb zero one = false -> eqb zero zero = true ->
  forall n a x y, length a = n -> length x = n -> length y = n -> exists z, sbmv zero one add mul eqb n 0 one a x zero y = Ok z /\ length z = n /\
  forall i u d, nth_error x i = Some u -> nth_error a i = Some d -> nth_error z i = Some (add (add zero (mul u d)) zero).
Proof.
  intros M1 E1 E01 E0 n a x y La Lx Ly. unfold sbmv. cbn [Nat.ltb Nat.leb Nat.add]. rewrite E1, E01, E0. cbn [andb]. rewrite orb_false_r. destruct (Nat.eqb_spec n 0) as [->|N0].
  - exists y. split; auto. split; auto. intros i u d Nu. destruct x; [destruct i; discriminate|discriminate].
  - destruct (column_changed (fun i y => cell y i (fun _ => zero)) (fun _ _ => zero) n n 0 y Ly) as (y1 & Ea & L1 & H1); [lia|intros; rewrite Nat.add_0_r; auto|]. rewrite Ea. cbn [obind]. assert (Ly1 : length y1 = n) by congruence.
    destruct (column_changed (fun j y => obind (rd x j) (fun u => obind (rd a j) (fun d => cell y j (fun z => add (add z (mul (mul one u) d)) (mul one zero)))))
      (fun i z => add (add z (mul (nth i x zero) (nth i a zero))) zero) n n 0 y1 Ly1) as (z & E & L & H); [lia| |].
    + intros i b Hi Lb. unfold rd. rewrite (nth_error_nth' a zero), (nth_error_nth' x zero) by lia. rewrite Nat.add_0_r. cbn [obind]. rewrite !M1. reflexivity.
    + exists z. split; [exact E|]. split; [congruence|]. intros i u d Nu Nd. assert (I : i < n) by (rewrite <- Lx; apply nth_error_Some; congruence).
      rewrite (H i zero).
      * destruct (Nat.ltb_spec i (0 + n)); [|lia]. simpl. rewrite Nat.sub_0_r. rewrite (nth_error_nth _ _ _ Nu), (nth_error_nth _ _ _ Nd). reflexivity.
      * rewrite (H1 i (nth i y zero)) by (apply nth_error_nth'; lia). destruct (Nat.ltb_spec i (0 + n)); [reflexivity|lia].
Qed.
Theorem C118_axpy : forall n alpha x y, length x = n -> length y = n -> eqb alpha zero = false -> exists z, axpy zero add mul eqb n alpha x y = Ok z /\ length z = n /\
  forall i u v, nth_error x i = Some u -> nth_error y i = Some v -> nth_error z i = Some (add v (mul alpha u)).
Proof.
  intros n alpha x y Lx Ly A. unfold axpy. rewrite A.
  destruct (column_changed (fun i y => obind (rd x i) (fun u => cell y i (fun z => add z (mul alpha u)))) (fun i z => add z (mul alpha (nth i x zero))) n n 0 y Ly) as (z & E & L & H); [lia| |].
  - intros i b Hi Lb. unfold rd. rewrite (nth_error_nth' x zero) by lia. rewrite Nat.add_0_r. reflexivity.
  - exists z. split; [exact E|]. split; [congruence|]. intros i u v Nu Nv. rewrite (H _ _ Nv). assert (i < n) by (rewrite <- Lx; apply nth_error_Some; congruence).
    destruct (Nat.ltb_spec i (0 + n)); [|lia]. simpl. rewrite Nat.sub_0_r. rewrite (nth_error_nth _ _ _ Nu). reflexivity.
Qed.
Lemma cells_ext : forall l l' : list F, (forall i, nth_error l i = nth_error l' i) -> l = l'.
Proof.
  induction l as [|x l IH]; intros [|y l'] H; auto; try (specialize (H 0); discriminate). f_equal; [specialize (H 0); simpl in H; congruence|]. apply IH. intros i. apply (H (S i)).
Qed.
Theorem C118_scal : forall n alpha x, length x = n -> exists z, scal mul n alpha x = Ok z /\ z = map (mul alpha) x.
Proof.
  intros n alpha x Lx. unfold scal.
  destruct (column_changed (fun i x => cell x i (fun z => mul alpha z)) (fun _ z => mul alpha z) n n 0 x Lx) as (z & E & L & H); [lia|intros; rewrite Nat.add_0_r; auto|].
  exists z. split; [exact E|]. apply cells_ext. intros i. rewrite nth_error_map. destruct (nth_error x i) as [u|] eqn:N.
  - rewrite (H _ _ N). assert (i < n) by (rewrite <- Lx; apply nth_error_Some; congruence). destruct (Nat.ltb_spec i (0 + n)); [reflexivity|lia].
  - simpl. apply nth_error_None. apply nth_error_None in N. lia.
Qed.
Theorem C118_dot : forall n x y, length x = n -> length y = n -> dot zero add mul n x y = Ok (fold_left (fun s i => add s (mul (nth i x zero) (nth i y zero))) (seq 0 n) zero).
Proof.
  intros n x y Lx Ly. unfold dot. assert (X : forall m i s, i + m = n -> dot_from add mul m i x y s = Ok (fold_left (fun s i => add s (mul (nth i x zero) (nth i y zero))) (seq i m) s)); [|apply X; lia].
  induction m as [|m IH]; intros i s E; simpl; auto. unfold rd. rewrite (nth_error_nth' x zero), (nth_error_nth' y zero) by lia. cbn [obind]. apply IH. lia.
Qed.
End Blas.

(** In a ring: [alpha A B + beta C]. *)
Theorem C118_ring : forall F (zero one : F) add mul sub opp (eqb : F -> F -> bool), ring_theory zero one add mul sub opp (@eq F) -> (forall x y, eqb x y = true <-> x = y) ->
  forall iM iN iK alpha a b beta c, 1 <= iN -> 1 <= iK -> length a = iM * iK -> length b = iK * iN -> length c = iM * iN ->
  exists c', gemm zero one add mul eqb iM iN iK alpha a b beta c = Ok c' /\ length c' = iM * iN /\
    forall r k, r < iM -> k < iN -> nth (r * iN + k) c' zero =
      add (mul alpha (sum zero add iK (fun l => mul (nth (r * iK + l) a zero) (nth (l * iN + k) b zero)))) (mul beta (nth (r * iN + k) c zero)).
Proof.
  intros F zero one add mul sub opp eqb R Eq iM iN iK alpha a b beta c N K La Lb Lc. destruct R.
  assert (Z0 : forall x, mul x zero = zero).
  { intros x. assert (A : forall u, add u u = u -> u = zero).
    { intros u Hu. rewrite <- (Ropp_def u). rewrite <- Hu at 2. rewrite <- Radd_assoc, Ropp_def. rewrite Radd_comm, Radd_0_l. reflexivity. }
    apply A. rewrite Rmul_comm, <- Rdistr_l, Radd_0_l. reflexivity. }
  assert (Zl : forall x, mul zero x = zero) by (intros x; rewrite Rmul_comm; auto).
  assert (Sc : forall z, scaled zero one mul eqb beta z = mul beta z).
  { intros z. unfold scaled. destruct (eqb beta zero) eqn:B0; [apply Eq in B0; subst; auto|]. destruct (eqb beta one) eqn:B1; [apply Eq in B1; subst; auto|reflexivity]. }
  assert (Sm : forall g n z, fold_left (fun s l => add s (mul alpha (g l))) (seq 0 n) z = add (mul alpha (sum zero add n g)) z).
  { intros g n z. induction n as [|n IH]; [simpl; rewrite Z0; auto|]. rewrite seq_S, fold_left_app, IH. simpl.
    rewrite (Rmul_comm alpha (add (sum zero add n g) (g n))), Rdistr_l, !(Rmul_comm _ alpha). rewrite <- Radd_assoc, (Radd_comm z), Radd_assoc. reflexivity. }
  destruct (eqb alpha zero) eqn:A0.
  - apply Eq in A0. subst alpha. unfold gemm, xgemm. destruct (Nat.ltb_spec iN (Nat.max 1 iN)); [lia|]. destruct (Nat.ltb_spec iK (Nat.max 1 iK)); [lia|]. cbn [orb].
    destruct (Nat.eqb_spec iN 0); [lia|]. cbn [orb]. assert (E0 : eqb zero zero = true) by (apply Eq; auto). rewrite E0. cbn [orb andb].
    destruct (Nat.eqb_spec iM 0) as [->|M0]; [exists c; split; auto; split; auto; intros; lia|]. cbn [orb]. destruct (eqb beta one) eqn:B1.
    + apply Eq in B1. subst beta. exists c. split; auto. split; auto. intros r k Hr Hk. rewrite Zl, Radd_0_l, Rmul_1_l. reflexivity.
    + destruct (count_changed (fun j c => if eqb beta zero then count iN 0 (fun i c => cell c (i + j * iN) (fun _ => zero)) c else count iN 0 (fun i c => cell c (i + j * iN) (fun x => mul beta x)) c)
        (fun j p x => if Nat.leb (j * iN) p && Nat.ltb p (j * iN + iN) then mul beta x else x) (iM * iN) iM 0 c Lc) as (c' & E & L & Hc).
      { intros j c1 Hj L1. assert (J : j * iN + iN <= iM * iN) by nia. destruct (scale_gives zero one mul eqb beta iN j _ c1 L1 J) as (c2 & E2 & C2). rewrite B1 in E2. exists c2. split; [exact E2|].
        eapply changed_ext; [|exact C2]. intros p x _. cbv beta. rewrite Sc. reflexivity. }
      exists c'. split; [exact E|]. split; [congruence|]. intros r k Hr Hk. rewrite Zl, Radd_0_l.
      apply nth_error_nth. rewrite (Hc _ (nth (r * iN + k) c zero)) by (apply nth_error_nth'; nia). f_equal.
      rewrite (fold_one _ iM 0 r) by (first [lia | intros i y Hi D; cbv beta; rewrite in_row by auto; destruct (Nat.eqb_spec i r); [lia|reflexivity]]).
      cbv beta. rewrite in_row, Nat.eqb_refl by auto. reflexivity.
  - destruct (C118_gemm zero one add mul eqb iM iN iK alpha a b beta c N K La Lb Lc A0) as (c' & E & L & H). exists c'. split; auto. split; auto. intros r k Hr Hk.
    apply nth_error_nth. rewrite (H r k (nth (r * iN + k) c zero) Hr Hk) by (apply nth_error_nth'; nia). f_equal. unfold row_times_column. rewrite Sc, <- Sm. apply fold_ext. intros y l _. rewrite Rmul_assoc. reflexivity.
Qed.

(** * Examples *)
(** A matrix of two rows times one of three, in the integers. *)
Example C118_example :
  exists c', gemm 0%Z 1%Z Z.add Z.mul Z.eqb 2 2 3 10%Z [1; 2; 3; 4; 5; 6]%Z [1; 0; 0; 1; 1; 1]%Z 1%Z [7; 8; 9; 5]%Z = Ok c' /\ c' = [47; 58; 109; 115]%Z.
Proof.
  destruct (C118_gemm 0%Z 1%Z Z.add Z.mul Z.eqb 2 2 3 10%Z [1; 2; 3; 4; 5; 6]%Z [1; 0; 0; 1; 1; 1]%Z 1%Z [7; 8; 9; 5]%Z) as (c' & E & L & H); try reflexivity; try lia.
  exists c'. split; auto. apply (cells_ext c' [47; 58; 109; 115]%Z). intros i. destruct i as [|[|[|[|i]]]].
  - apply (H 0 0 7%Z); auto.
  - apply (H 0 1 8%Z); auto.
  - apply (H 1 0 9%Z); auto.
  - apply (H 1 1 5%Z); auto.
  - transitivity (@None Z); [apply nth_error_None; simpl in L; lia|destruct i; reflexivity].
Qed.
Example C118_vectors_example :
  tbmv Z.mul 3 0 [1; 2; 3]%Z [4; 5; 6]%Z = Ok [4; 10; 18]%Z /\ sbmv 0%Z 1%Z Z.add Z.mul Z.eqb 3 0 1%Z [1; 2; 3]%Z [4; 5; 6]%Z 0%Z [7; 7; 7]%Z = Ok [4; 10; 18]%Z /\
  axpy 0%Z Z.add Z.mul Z.eqb 3 2%Z [1; 2; 3]%Z [4; 5; 6]%Z = Ok [6; 9; 12]%Z /\ scal Z.mul 3 2%Z [1; 2; 3]%Z = Ok [2; 4; 6]%Z /\ dot 0%Z Z.add Z.mul 3 [1; 2; 3]%Z [4; 5; 6]%Z = Ok 32%Z /\
  tbmv Z.mul 3 1 [1; 2; 3]%Z [4; 5; 6]%Z = Throw xerbla /\ gemm 0%Z 1%Z Z.add Z.mul Z.eqb 2 0 3 1%Z [1; 2; 3; 4; 5; 6]%Z [] 0%Z [] = Throw xerbla.
Proof. repeat split. Qed.
(** In doubles, [sbmv] adds the product to a zero, which loses the sign of a zero: the product of the
    elements of [a * b] can differ from that of [a *= b], for which [tbmv] is used. *)
Theorem C118_sign_of_zero_refuted : exists one a x y,
  let mul := SpecFloat.SFmul 53 1024 in let add := SpecFloat.SFadd 53 1024 in let zero := SpecFloat.S754_zero false in
  mul one x = x /\ tbmv mul 1 0 [a] [x] = Ok [mul x a] /\ sbmv zero one add mul SpecFloat.SFeqb 1 0 one [a] [x] zero [y] <> Ok [mul x a].
Proof.
  exists (SpecFloat.S754_finite false 4503599627370496 (-52)), (SpecFloat.S754_zero true), (SpecFloat.S754_finite false 4503599627370496 (-52)), (SpecFloat.S754_zero false).
  split; [reflexivity|]. split; [reflexivity|]. vm_compute. discriminate.
Qed.
