(** The companion matrix and its eigenvalues. *)
From Coq Require Import ZArith Bool List String Lia Ring Ring_theory Field_theory.
From Verif Require Import Base NumModel StrModel MemProof RootsModel RootsSpec.
Import ListNotations.
Local Open Scope nat_scope.
Local Open Scope out_scope.
Local Open Scope list_scope.
Local Notation length := List.length.

(** * The cells of the matrix *)
Section Cells.
Context {F : Type}.
Variables (zero one : F) (mul div : F -> F -> F) (opp : F -> F).

(** What the cells are after a loop each of whose steps [i] writes the cells [P i]. *)
Lemma count_gives : forall (body : nat -> list F -> outcome (list F)) (P : nat -> nat -> Prop) (v : nat -> F) len n i0 a,
  length a = len ->
  (forall i a, i0 <= i < i0 + n -> length a = len -> exists b, body i a = Ok b /\ length b = len /\
     forall p, (P i p /\ nth_error b p = Some (v p)) \/ (~ P i p /\ nth_error b p = nth_error a p)) ->
  exists b, count n i0 body a = Ok b /\ length b = len /\
    forall p, ((exists i, i0 <= i < i0 + n /\ P i p) /\ nth_error b p = Some (v p)) \/ (~ (exists i, i0 <= i < i0 + n /\ P i p) /\ nth_error b p = nth_error a p).
Proof.
  intros body P v len n. induction n as [|n IH]; intros i0 a La H; simpl.
  - exists a. split; auto. split; auto. intros p. right. split; auto. intros (i & X & _). lia.
  - destruct (H i0 a) as (b & E & Lb & Hb); [lia|auto|]. rewrite E. simpl.
    destruct (IH (S i0) b Lb) as (c & Ec & Lc & Hc); [intros i a' Hi; apply H; lia|]. exists c. split; auto. split; auto.
    intros p. destruct (Hc p) as [((i & Hi & Pi) & Np)|(Nn & Np)].
    + left. split; auto. exists i. split; auto. lia.
    + destruct (Hb p) as [(Pi & Nb)|(Nb1 & Nb2)].
      * left. split; [exists i0; split; auto; lia|congruence].
      * right. split; [|congruence]. intros (i & Hi & Pi). destruct (Nat.eq_dec i i0) as [->|D]; auto. apply Nn. exists i. split; auto. lia.
Qed.
Lemma wr_gives : forall (a : list F) len i x, length a = len -> i < len -> exists b, wr a i x = Ok b /\ length b = len /\
  forall p, (p = i /\ nth_error b p = Some x) \/ (p <> i /\ nth_error b p = nth_error a p).
Proof.
  intros a len i x L H. unfold wr. destruct (Nat.ltb_spec i (length a)); [|lia]. exists (set_nth a i x). split; auto. split; [rewrite sn_length; auto|].
  intros p. destruct (Nat.eq_dec p i) as [->|D]; [left; split; auto; apply sn_same; auto|right; split; auto; apply sn_other; auto].
Qed.
Lemma cell_div : forall n r k, k < n -> (r * n + k) / n = r /\ (r * n + k) mod n = k.
Proof.
  intros n r k H. split.
  - rewrite Nat.add_comm, Nat.div_add by lia. rewrite Nat.div_small; auto.
  - rewrite Nat.add_comm, Nat.mod_add by lia. apply Nat.mod_small; auto.
Qed.
Lemma cell_inj : forall n r k r' k', k < n -> k' < n -> r * n + k = r' * n + k' -> r = r' /\ k = k'.
Proof.
  intros n r k r' k' H H' E. destruct (cell_div n r k H) as [A B]. destruct (cell_div n r' k' H') as [A' B']. rewrite E in A, B. split; congruence.
Qed.
Lemma cell_lt : forall n r k, r < n -> k < n -> r * n + k < n * n.
Proof. intros. nia. Qed.
(** The matrix: the coefficients in the first row, ones below the diagonal. *)
Definition entry (c : list F) (c0 : F) (r k : nat) : option F :=
  if Nat.eqb r 0 then match nth_error c (k + 1) with Some x => Some (mul (div x c0) (opp one)) | None => None end
  else if Nat.eqb r (k + 1) then Some one else Some zero.
Lemma companion_gives : forall c c0 n, nth_error c 0 = Some c0 -> length c = n + 1 -> 2 <= n -> in_int (Z.of_nat n * Z.of_nat n) = true ->
  exists a, companion zero one mul div opp c n = Ok a /\ length a = n * n /\ forall r k, r < n -> k < n -> nth_error a (r * n + k) = entry c c0 r k.
Proof.
  intros c c0 n C0 Lc Ln Hi. unfold companion, rd. rewrite C0. cbn [obind]. rewrite Hi. cbn [negb]. destruct (Nat.ltb_spec (n * n) 2) as [X|_]; [nia|].
  set (a0 := repeat c0 (n * n)). assert (L0 : length a0 = n * n) by apply repeat_length.
  destruct (count_gives (fun r a => wr a (r * n + (n - 1)) zero) (fun r p => p = r * n + (n - 1)) (fun _ => zero) (n * n) (n - 1) 1 a0 L0) as (a1 & E1 & L1 & H1).
  { intros i a Hi' La. apply wr_gives; auto. apply cell_lt; lia. }
  rewrite E1. cbn [obind].
  destruct (count_gives (fun r a => count (n - 1) 0 (fun k a => wr a ((r + 1) * n + k) (if Nat.eqb r k then one else zero)) a)
    (fun r p => exists k, k < n - 1 /\ p = (r + 1) * n + k) (fun p => if Nat.eqb (p / n) (p mod n + 1) then one else zero) (n * n) (n - 1) 0 a1 L1) as (a2 & E2 & L2 & H2).
  { intros r a Hr La.
    destruct (count_gives (fun k a => wr a ((r + 1) * n + k) (if Nat.eqb r k then one else zero)) (fun k p => p = (r + 1) * n + k) (fun p => if Nat.eqb (p / n) (p mod n + 1) then one else zero) (n * n) (n - 1) 0 a La) as (b & E & Lb & Hb).
    { intros k b Hk Lb. destruct (wr_gives b (n * n) ((r + 1) * n + k) (if Nat.eqb r k then one else zero) Lb) as (b' & E & Lb' & Hb'); [apply cell_lt; lia|].
      exists b'. split; auto. split; auto. intros p. destruct (Hb' p) as [(-> & X)|X]; [|auto]. left. split; auto. rewrite X. destruct (cell_div n (r + 1) k) as [-> ->]; [lia|].
      destruct (Nat.eqb_spec r k), (Nat.eqb_spec (r + 1) (k + 1)); auto; lia. }
    exists b. split; auto. split; auto. intros p. destruct (Hb p) as [((k & Hk & Pk) & X)|(Nn & X)].
    - left. split; auto. exists k. split; auto. lia.
    - right. split; auto. intros (k & Hk & Pk). apply Nn. exists k. split; auto. lia. }
  rewrite E2. cbn [obind].
  set (row := fun p => match nth_error c (p + 1) with Some x => mul (div x c0) (opp one) | None => zero end).
  destruct (count_gives (fun k a => let* x := match nth_error c (k + 1) with Some x => Ok x | None => UB OutOfBounds end in let* y := Ok c0 in wr a k (mul (div x y) (opp one)))
    (fun k p => p = k) row (n * n) n 0 a2 L2) as (a3 & E3 & L3 & H3).
  { intros k a Hk La. destruct (nth_error c (k + 1)) as [x|] eqn:Nx; [|apply nth_error_None in Nx; lia]. cbn [obind].
    destruct (wr_gives a (n * n) k (mul (div x c0) (opp one)) La) as (b & E & Lb & Hb); [nia|]. exists b. split; auto. split; auto.
    intros p. destruct (Hb p) as [(-> & X)|X]; [|auto]. left. split; auto. unfold row. rewrite Nx. auto. }
  exists a3. split; [exact E3|]. split; auto. intros r k Hr Hk. unfold entry. destruct (Nat.eqb_spec r 0) as [->|R0].
  - simpl. destruct (nth_error c (k + 1)) as [x|] eqn:Nx; [|apply nth_error_None in Nx; lia].
    destruct (H3 k) as [(_ & X)|(X & _)]; [unfold row in X; rewrite Nx in X; auto|]. exfalso. apply X. exists k. split; auto. lia.
  - destruct (H3 (r * n + k)) as [((i & Hi' & X) & _)|(_ & ->)]; [nia|]. destruct (Nat.eq_dec k (n - 1)) as [->|Kn].
    + destruct (H2 (r * n + (n - 1))) as [((i & Hi' & k' & Hk' & X) & _)|(_ & ->)]; [apply cell_inj in X; lia|].
      destruct (H1 (r * n + (n - 1))) as [(_ & ->)|(X & _)].
      * destruct (Nat.eqb_spec r (n - 1 + 1)); auto; lia.
      * exfalso. apply X. exists r. split; auto. lia.
    + destruct (H2 (r * n + k)) as [(_ & ->)|(X & _)].
      * destruct (cell_div n r k Hk) as [-> ->]. destruct (Nat.eqb_spec r (k + 1)); auto.
      * exfalso. apply X. exists (r - 1). split; [lia|]. exists k. split; [lia|]. replace (r - 1 + 1) with r by lia. auto.
Qed.
End Cells.

(** * Eigenvalues *)
Section Algebra.
Context {F K : Type}.
Variables (f0 f1 : F) (fadd fmul fsub fdiv : F -> F -> F) (fopp finv : F -> F).
Variables (k0 k1 : K) (kadd kmul ksub : K -> K -> K) (kopp : K -> K) (phi : F -> K).
Hypothesis FT : field_theory f0 f1 fadd fmul fsub fopp fdiv finv (@eq F).
Hypothesis KT : ring_theory k0 k1 kadd kmul ksub kopp (@eq K).
Hypothesis K_domain : forall x y, kmul x y = k0 -> x = k0 \/ y = k0.
Hypothesis K_nontrivial : k1 <> k0.
Hypothesis phi1 : phi f1 = k1.
Hypothesis phi0 : phi f0 = k0.
Hypothesis phi_mul : forall x y, phi (fmul x y) = kmul (phi x) (phi y).
Hypothesis phi_opp : forall x, phi (fopp x) = kopp (phi x).
Add Ring KR : KT.

Local Notation sum := (sum k0 kadd).
Local Notation pow := (pow k1 kmul).
Local Notation poly := (poly k0 k1 kadd kmul phi).
Local Notation eigenvalue := (eigenvalue f0 k0 kadd kmul phi).
Lemma sum_ext : forall n g h, (forall j, j < n -> g j = h j) -> sum n g = sum n h.
Proof. induction n as [|n IH]; intros g h H; simpl; auto. rewrite (IH g h), (H n) by auto. reflexivity. Qed.
Lemma sum_zero : forall n g, (forall j, j < n -> g j = k0) -> sum n g = k0.
Proof. induction n as [|n IH]; intros g H; simpl; auto. rewrite IH, (H n) by auto. ring. Qed.
Lemma sum_one : forall n g i, i < n -> (forall j, j < n -> j <> i -> g j = k0) -> sum n g = g i.
Proof.
  induction n as [|n IH]; intros g i L H; [lia|]. simpl. destruct (Nat.eq_dec i n) as [->|D].
  - rewrite sum_zero by (intros j Hj; apply H; lia). ring.
  - rewrite (IH g i), (H n) by (auto; lia). ring.
Qed.
Lemma sum_two : forall n g i i', i < i' < n -> (forall j, j < n -> j <> i -> j <> i' -> g j = k0) -> sum n g = kadd (g i) (g i').
Proof.
  induction n as [|n IH]; intros g i i' L H; [lia|]. simpl. destruct (Nat.eq_dec i' n) as [->|D].
  - rewrite (sum_one n g i) by (auto; try lia; intros j Hj Dj; apply H; lia). reflexivity.
  - rewrite (IH g i i'), (H n) by (auto; lia). ring.
Qed.
Lemma poly_snoc : forall c a x, poly (c ++ [a]) x = kadd (kmul x (poly c x)) (phi a).
Proof.
  induction c as [|b c IH]; intros a x; simpl; [ring|]. rewrite IH, app_length. simpl. rewrite Nat.add_1_r. simpl. ring.
Qed.
Lemma poly_firstn : forall c k a x, nth_error c k = Some a -> poly (firstn (S k) c) x = kadd (kmul x (poly (firstn k c) x)) (phi a).
Proof.
  intros c k a x N. rewrite <- poly_snoc. f_equal. revert k N. induction c as [|b c IH]; intros [|k] N; simpl in N; try discriminate.
  - inversion N; subst. reflexivity.
  - change (firstn (S (S k)) (b :: c)) with (b :: firstn (S k) c). rewrite (IH k N). reflexivity.
Qed.
Lemma phi_div : forall a b, b <> f0 -> kmul (phi b) (phi (fdiv a b)) = phi a.
Proof.
  intros a b B. rewrite <- phi_mul. f_equal. rewrite (Fdiv_def FT). pose proof (F_R FT) as R. rewrite (Rmul_comm R a), (Rmul_assoc R), (Rmul_comm R b), (Finv_l FT) by auto. apply (Rmul_1_l R).
Qed.
Lemma phi_nonzero : forall b, b <> f0 -> phi b <> k0.
Proof.
  intros b B E. apply K_nontrivial. rewrite <- phi1. rewrite <- (phi_div f1 b B), E. ring.
Qed.

(** The equations that the companion matrix puts on an eigenvector. *)
Section Matrix.
Variables (c : list F) (c0 : F) (n : nat) (a : list F).
Hypothesis C0 : nth_error c 0 = Some c0.
Hypothesis C0n : c0 <> f0.
Hypothesis Lc : length c = n + 1.
Hypothesis Ln : 2 <= n.
Hypothesis La : length a = n * n.
Hypothesis Ha : forall r k, r < n -> k < n -> nth_error a (r * n + k) = entry f0 f1 fmul fdiv fopp c c0 r k.
Let coef (k : nat) : F := nth k c f0.
Lemma coef_at : forall k, k <= n -> nth_error c k = Some (coef k).
Proof. intros k H. apply nth_error_nth'. lia. Qed.
Lemma first_row : forall k, k < n -> nth (k + 0 * n) a f0 = fmul (fdiv (coef (k + 1)) c0) (fopp f1).
Proof.
  intros k H. rewrite Nat.mul_0_l, Nat.add_0_r. pose proof (Ha 0 k) as X. simpl in X. unfold entry in X. simpl in X. rewrite coef_at in X by lia. apply nth_error_nth. apply X; lia.
Qed.
Lemma other_row : forall r k, 0 < r < n -> k < n -> nth (k + r * n) a f0 = if Nat.eqb r (k + 1) then f1 else f0.
Proof.
  intros r k R H. rewrite (Nat.add_comm k). apply nth_error_nth. rewrite Ha by lia. unfold entry. destruct (Nat.eqb_spec r 0); [lia|]. destruct (Nat.eqb r (k + 1)); auto.
Qed.
Lemma row_sum : forall v i, i + 1 < n -> sum n (fun j => kmul (phi (nth (i + j * n) a f0)) (v j)) = kadd (kopp (kmul (phi (fdiv (coef (i + 1)) c0)) (v 0))) (v (i + 1)).
Proof.
  intros v i H. rewrite (sum_two n _ 0 (i + 1)) by (first [lia | intros j Hj D D'; rewrite other_row by lia; destruct (Nat.eqb_spec j (i + 1)); [lia|rewrite phi0; ring]]).
  rewrite first_row, other_row by lia. rewrite Nat.eqb_refl, phi_mul, phi_opp, phi1. ring.
Qed.
Lemma last_sum : forall v, sum n (fun j => kmul (phi (nth (n - 1 + j * n) a f0)) (v j)) = kopp (kmul (phi (fdiv (coef n) c0)) (v 0)).
Proof.
  intros v. rewrite (sum_one n _ 0) by (first [lia | intros j Hj D; rewrite other_row by lia; destruct (Nat.eqb_spec j (n - 1 + 1)); [lia|rewrite phi0; ring]]).
  rewrite first_row by lia. replace (n - 1 + 1) with n by lia. rewrite phi_mul, phi_opp, phi1. ring.
Qed.
Lemma whole : forall x, poly c x = poly (firstn (S n) c) x.
Proof. intros x. rewrite firstn_all2 by lia. reflexivity. Qed.
Lemma poly_step : forall k x, k <= n -> poly (firstn (S k) c) x = kadd (kmul x (poly (firstn k c) x)) (phi (coef k)).
Proof. intros k x H. apply poly_firstn. apply coef_at; auto. Qed.
Lemma poly_first : forall x, poly (firstn 1 c) x = phi c0.
Proof. intros x. rewrite (poly_firstn c 0 c0 x C0). simpl. ring. Qed.
Lemma eigen_root : forall x, eigenvalue n a x -> poly c x = k0.
Proof.
  intros x (v & (i0 & I0 & V0) & Hv).
  assert (P : forall k, k < n -> kmul (phi c0) (v k) = kmul (poly (firstn (S k) c) x) (v 0)).
  { induction k as [|k IH]; intros H; [rewrite poly_first; reflexivity|].
    pose proof (Hv k ltac:(lia)) as E. rewrite row_sum in E by lia. rewrite Nat.add_1_r in E.
    assert (E' : v (S k) = kadd (kmul x (v k)) (kmul (phi (fdiv (coef (S k)) c0)) (v 0))) by (rewrite <- E; ring).
    rewrite E', poly_step by lia. pose proof (phi_div (coef (S k)) c0 C0n) as D.
    transitivity (kadd (kmul x (kmul (phi c0) (v k))) (kmul (kmul (phi c0) (phi (fdiv (coef (S k)) c0))) (v 0))); [ring|]. rewrite D, IH by lia. ring. }
  assert (E : kmul (poly c x) (v 0) = k0).
  { rewrite whole, poly_step by lia. pose proof (Hv (n - 1) ltac:(lia)) as E. rewrite last_sum in E.
    pose proof (P (n - 1) ltac:(lia)) as X. replace (S (n - 1)) with n in X by lia. pose proof (phi_div (coef n) c0 C0n) as D.
    transitivity (kadd (kmul x (kmul (poly (firstn n c) x) (v 0))) (kmul (phi (coef n)) (v 0))); [ring|]. rewrite <- X, <- D.
    transitivity (kmul (phi c0) (kadd (kmul x (v (n - 1))) (kmul (phi (fdiv (coef n) c0)) (v 0)))); [ring|]. rewrite <- E. ring. }
  destruct (K_domain _ _ E) as [|Z]; auto. exfalso. apply V0. specialize (P i0 I0). rewrite Z in P.
  assert (Q : kmul (phi c0) (v i0) = k0) by (rewrite P; ring). destruct (K_domain _ _ Q) as [Y|]; auto. destruct (phi_nonzero c0 C0n Y).
Qed.
Lemma root_eigen : forall x, poly c x = k0 -> eigenvalue n a x.
Proof.
  intros x R. set (q := phi (fdiv f1 c0)). assert (Q : kmul (phi c0) q = k1) by (unfold q; rewrite phi_div; auto).
  assert (D : forall b, phi (fdiv b c0) = kmul q (phi b)).
  { intros b. unfold q. rewrite <- phi_mul. f_equal. rewrite !(Fdiv_def FT). pose proof (F_R FT) as T. rewrite (Rmul_1_l T). apply (Rmul_comm T). }
  exists (fun k => kmul q (poly (firstn (S k) c) x)). split.
  - exists 0. split; [lia|]. rewrite poly_first. intros X. apply K_nontrivial. rewrite <- Q, <- X. ring.
  - intros i Hi. assert (V0 : kmul q (poly (firstn 1 c) x) = k1) by (rewrite poly_first, <- Q; ring). destruct (Nat.eq_dec (i + 1) n) as [E|E].
    + replace i with (n - 1) by lia. rewrite last_sum, V0, D. replace (S (n - 1)) with n by lia. rewrite whole, poly_step in R by lia.
      transitivity (kadd (kopp (kmul q (kadd (kmul x (poly (firstn n c) x)) (phi (coef n))))) (kmul x (kmul q (poly (firstn n c) x)))); [ring|]. rewrite R. ring.
    + rewrite row_sum by lia. rewrite V0, D. replace (S (i + 1)) with (S (S i)) by lia. rewrite (poly_step (S i)) by lia. replace (i + 1) with (S i) by lia. ring.
Qed.
End Matrix.
End Algebra.
