(** Properties of the wrappers of LAPACK: C146. *)
From Coq Require Import ZArith Bool List Lia Ring Ring_theory.
From Verif Require Import LapackModel.
Import ListNotations.
Local Open Scope nat_scope.

Section Exact.
Context {F : Type}.
Variables (f0 f1 : F) (fadd fmul fsub : F -> F -> F) (fopp : F -> F).
(** Numbers are exact: rounding is not considered here. *)
Hypothesis Rth : ring_theory f0 f1 fadd fmul fsub fopp eq.
Add Ring FRing : Rth.
(** Which numbers are positive. *)
Variable positive : F -> bool.

(** * Complex numbers *)
Definition C := (F * F)%type.
Definition re (x : F) : C := (x, f0).
Definition cadd (x y : C) : C := (fadd (fst x) (fst y), fadd (snd x) (snd y)).
Definition cmul (x y : C) : C := (fsub (fmul (fst x) (fst y)) (fmul (snd x) (snd y)), fadd (fmul (fst x) (snd y)) (fmul (snd x) (fst y))).
Definition conj (x : C) : C := (fst x, fopp (snd x)).
Fixpoint total (n : nat) (f : nat -> F) : F := match n with O => f0 | S k => fadd (total k f) (f k) end.
Fixpoint ctotal (n : nat) (f : nat -> C) : C := match n with O => re f0 | S k => cadd (ctotal k f) (f k) end.

(** * What LAPACK does *)
(** The element in row [i] and column [k] of a matrix whose columns are one after the other, [ld] apart. *)
Definition fort (ld : nat) (a : list F) (i k : nat) : F := nth (k * ld + i) a f0.
Definition at_ (a : list F) (i : nat) : F := nth i a f0.
(** A place for [n] vectors if they are wanted. *)
Definition room (n : nat) (want : bool) (v : option (list F)) (ld : nat) : Prop :=
  1 <= ld /\ (want = true -> n <= ld /\ exists l, v = Some l /\ length l = ld * n).
(** xGEEV: "LDA >= max(1,N)", "LDVL >= 1; if JOBVL = 'V', LDVL >= N", "LWORK >= max(1,3*N), and if JOBVL =
    'V' or JOBVR = 'V', LWORK >= 4*N". *)
Definition geev_pre (i : geev_in F) : Prop :=
  Nat.max 1 (gn F i) <= lda F i /\ length (ga F i) = lda F i * gn F i /\
  room (gn F i) (jobvl F i) (gvl F i) (ldvl F i) /\ room (gn F i) (jobvr F i) (gvr F i) (ldvr F i) /\
  1 <= lwork F i /\ (if jobvl F i || jobvr F i then 4 else 3) * gn F i <= lwork F i /\ lwork F i <= work F i.
(** "If the j-th eigenvalue is real, then u(j) = VL(:,j).  If the j-th and (j+1)-st eigenvalues form a
    complex conjugate pair, then u(j) = VL(:,j) + i*VL(:,j+1)", "with the eigenvalue having the positive
    imaginary part first". *)
Definition vector (v : list F) (ld j : nat) (pair : bool) (i : nat) : C := (fort ld v i j, if pair then fort ld v i (S j) else f0).
(** "The left eigenvector u(j) of A satisfies u(j)**H * A = lambda(j) * u(j)**H", "the right eigenvector v(j)
    satisfies A * v(j) = lambda(j) * v(j)". *)
Definition left_vector (n : nat) (A : nat -> nat -> F) (w : C) (u : nat -> C) : Prop :=
  forall k, k < n -> ctotal n (fun i => cmul (conj (u i)) (re (A i k))) = cmul w (conj (u k)).
Definition right_vector (n : nat) (A : nat -> nat -> F) (w : C) (v : nat -> C) : Prop :=
  forall i, i < n -> ctotal n (fun k => cmul (re (A i k)) (v k)) = cmul w (v i).
Definition geev_post (i : geev_in F) (o : geev_out F) : Prop := oinfo F o = 0%Z ->
  let n := gn F i in let A := fort (lda F i) (ga F i) in
  forall j (pair : bool), j < n -> (if pair then positive (at_ (owi F o) j) = true else at_ (owi F o) j = f0) ->
    let w := (at_ (owr F o) j, at_ (owi F o) j) in
    (pair = true -> S j < n /\ at_ (owr F o) (S j) = at_ (owr F o) j /\ at_ (owi F o) (S j) = fopp (at_ (owi F o) j)) /\
    (jobvl F i = true -> exists l, ovl F o = Some l /\ left_vector n A w (vector l (ldvl F i) j pair)) /\
    (jobvr F i = true -> exists l, ovr F o = Some l /\ right_vector n A w (vector l (ldvr F i) j pair)).
Definition is_geev (f : geev_in F -> geev_out F) : Prop := forall i, geev_pre i -> geev_post i (f i).

(** xGEES: "A = Z*T*(Z**T)", with Z orthogonal and T upper quasi-triangular. *)
Definition gees_pre (i : gees_in F) : Prop :=
  sort F i = false /\ Nat.max 1 (sn F i) <= slda F i /\ length (sa F i) = slda F i * sn F i /\ room (sn F i) (jobvs F i) (svs F i) (ldvs F i) /\
  Nat.max 1 (3 * sn F i) <= slwork F i /\ slwork F i <= swork F i.
Definition gees_post (i : gees_in F) (o : gees_out F) : Prop := osinfo F o = 0%Z ->
  let n := sn F i in let A := fort (slda F i) (sa F i) in let T := fort (slda F i) (osa F o) in
  (forall r k, r < n -> k < n -> k + 1 < r -> T r k = f0) /\
  (jobvs F i = true -> exists l, ovs F o = Some l /\ let Z := fort (ldvs F i) l in
    (forall r k, r < n -> k < n -> A r k = total n (fun q => fmul (total n (fun p => fmul (Z r p) (T p q))) (Z k q))) /\
    (forall r k, r < n -> k < n -> total n (fun p => fmul (Z p r) (Z p k)) = if Nat.eqb r k then f1 else f0)).
Definition is_gees (f : gees_in F -> gees_out F) : Prop := forall i, gees_pre i -> gees_post i (f i).

(** * What libube has *)
(** The element in row [r] and column [c] of a matrix of libube: the rows are one after the other. *)
Definition mat (n : nat) (a : list F) (r c : nat) : F := nth (r * n + c) a f0.
(** An array for [n] vectors, or none. *)
Definition holds (n : nat) (v : option (list F)) : Prop := match v with Some l => length l = n * n | None => True end.

Lemma ctotal_ext : forall n f g, (forall i, i < n -> f i = g i) -> ctotal n f = ctotal n g.
Proof. induction n as [|n IH]; intros f g H; cbn [ctotal]; [reflexivity|]. rewrite (IH f g), H; auto. Qed.
Lemma total_ext : forall n f g, (forall i, i < n -> f i = g i) -> total n f = total n g.
Proof. induction n as [|n IH]; intros f g H; cbn [total]; [reflexivity|]. rewrite (IH f g), H; auto. Qed.
Lemma conj_total : forall n f, conj (ctotal n f) = ctotal n (fun i => conj (f i)).
Proof.
  induction n as [|n IH]; intros f; cbn [ctotal]. unfold conj, re. cbn [fst snd]. f_equal. ring.
  rewrite <- IH. unfold conj, cadd. cbn [fst snd]. f_equal. ring.
Qed.
Lemma conj_mul : forall x y, conj (cmul x y) = cmul (conj x) (conj y).
Proof. intros [a b] [c d]. unfold conj, cmul. cbn [fst snd]. f_equal; ring. Qed.
Lemma conj_conj : forall x, conj (conj x) = x.
Proof. intros [a b]. unfold conj. cbn [fst snd]. f_equal. ring. Qed.
Lemma conj_re : forall x, conj (re x) = re x.
Proof. intros x. unfold conj, re. cbn [fst snd]. f_equal. ring. Qed.
Lemma cmul_comm : forall x y, cmul x y = cmul y x.
Proof. intros [a b] [c d]. unfold cmul. cbn [fst snd]. f_equal; ring. Qed.

(** The routine is called properly whichever vectors are wanted. *)
Lemma called : forall n a vl vr, 1 <= n -> length a = n * n -> holds n vl -> holds n vr ->
  geev_pre {| jobvl := given vr; jobvr := given vl; gn := n; ga := a; lda := n; gvl := vr; ldvl := n; gvr := vl; ldvr := n; lwork := Nat.max 1 (n * 4); work := Nat.max 1 (n * 4) |}.
Proof.
  intros n a vl vr N La Hl Hr. unfold geev_pre, room. cbn [jobvl jobvr gn ga lda gvl ldvl gvr ldvr lwork work].
  split; [lia|]. split; [exact La|].
  split. { split; [lia|]. destruct vr; [|discriminate]. intros _. split; [lia|]. eexists. split; [reflexivity|exact Hr]. }
  split. { split; [lia|]. destruct vl; [|discriminate]. intros _. split; [lia|]. eexists. split; [reflexivity|exact Hl]. }
  destruct (given vr || given vl); lia.
Qed.

(** * C146 *)
(** The rows of [vr] are right eigenvectors and those of [vl] left ones, for real eigenvalues. *)
Theorem C146_real : forall geev_ n a vl vr, is_geev geev_ -> 1 <= n -> length a = n * n -> holds n vl -> holds n vr ->
  let e := geev F geev_ n a vl vr in e_info F e = 0%Z -> forall j, j < n -> at_ (e_wi F e) j = f0 ->
  (given vr = true -> exists l, e_vr F e = Some l /\ right_vector n (mat n a) (re (at_ (e_wr F e) j)) (fun c => re (mat n l j c))) /\
  (given vl = true -> exists l, e_vl F e = Some l /\ left_vector n (mat n a) (re (at_ (e_wr F e) j)) (fun r => re (mat n l j r))).
Proof.
  intros geev_ n a vl vr G N La Hl Hr e Ok j J Wi. specialize (G _ (called n a vl vr N La Hl Hr)). unfold e, geev in *. cbn [e_info e_wi e_wr e_vl e_vr] in *.
  set (o := geev_ _) in *. destruct (G Ok j false J Wi) as (_ & L & R). cbn [jobvl jobvr gn ga lda ldvl ldvr] in *. clear G. rewrite Wi in L, R. split; intros W.
  - destruct (L W) as (l & E & H). exists l. split; [exact E|]. intros i I. specialize (H i I).
    rewrite <- (conj_re (mat n l j i)). unfold vector, fort, mat, re in *. rewrite <- H. apply ctotal_ext. intros k _. rewrite cmul_comm. f_equal. unfold conj. cbn [fst snd]. f_equal. ring.
  - destruct (R W) as (l & E & H). exists l. split; [exact E|]. intros k K. specialize (H k K).
    rewrite conj_re. unfold vector, fort, mat, re in *. rewrite <- H. apply ctotal_ext. intros i _. rewrite cmul_comm. f_equal. unfold conj. cbn [fst snd]. f_equal. ring.
Qed.

(** For a pair of complex eigenvalues the two rows are the real and the imaginary part of an eigenvector of
    the one whose imaginary part is negative, which is the second. *)
Theorem C146_pair : forall geev_ n a vl vr, is_geev geev_ -> 1 <= n -> length a = n * n -> holds n vl -> holds n vr ->
  let e := geev F geev_ n a vl vr in e_info F e = 0%Z -> forall j, j < n -> positive (at_ (e_wi F e) j) = true ->
  let w k := (at_ (e_wr F e) k, at_ (e_wi F e) k) in
  S j < n /\ w (S j) = conj (w j) /\
  (given vr = true -> exists l, e_vr F e = Some l /\ let x c := (mat n l j c, mat n l (S j) c) in
     right_vector n (mat n a) (w (S j)) x /\ right_vector n (mat n a) (w j) (fun c => conj (x c))) /\
  (given vl = true -> exists l, e_vl F e = Some l /\ let y c := (mat n l j c, mat n l (S j) c) in
     left_vector n (mat n a) (w (S j)) y /\ left_vector n (mat n a) (w j) (fun c => conj (y c))).
Proof.
  intros geev_ n a vl vr G N La Hl Hr e Ok j J Wi w. specialize (G _ (called n a vl vr N La Hl Hr)). unfold w, e, geev in *. cbn [e_info e_wi e_wr e_vl e_vr] in *.
  set (o := geev_ _) in *. destruct (G Ok j true J Wi) as (P & L & R). destruct (P eq_refl) as (P1 & P2 & P3). cbn [jobvl jobvr gn ga lda ldvl ldvr] in *. clear G P.
  split; [exact P1|]. assert (Cw : (at_ (owr F o) (S j), at_ (owi F o) (S j)) = conj (at_ (owr F o) j, at_ (owi F o) j)) by (rewrite P2, P3; reflexivity).
  split; [exact Cw|]. rewrite Cw. set (w0 := (at_ (owr F o) j, at_ (owi F o) j)) in *. split; intros W.
  - destruct (L W) as (l & E & H). exists l. split; [exact E|]. cbn zeta. set (x := fun c => (mat n l j c, mat n l (S j) c)).
    assert (H2 : right_vector n (mat n a) w0 (fun c => conj (x c))).
    { intros i I. specialize (H i I). etransitivity; [|exact H]. apply ctotal_ext. intros k _. apply cmul_comm. }
    split; [|exact H2]. intros i I. specialize (H2 i I). apply (f_equal conj) in H2. rewrite conj_total, conj_mul, conj_conj in H2. rewrite <- H2.
    apply ctotal_ext. intros k _. rewrite conj_mul, conj_re, conj_conj. reflexivity.
  - destruct (R W) as (l & E & H). exists l. split; [exact E|]. cbn zeta. set (y := fun c => (mat n l j c, mat n l (S j) c)).
    assert (H2 : left_vector n (mat n a) w0 (fun c => conj (y c))).
    { intros k K. specialize (H k K). rewrite conj_conj. etransitivity; [|exact H]. apply ctotal_ext. intros i _. rewrite conj_conj. apply cmul_comm. }
    split; [|exact H2]. intros k K. specialize (H2 k K). apply (f_equal conj) in H2. rewrite conj_total, conj_mul in H2. rewrite conj_conj in H2. rewrite <- H2.
    apply ctotal_ext. intros i _. rewrite conj_mul, conj_re, conj_conj. reflexivity.
Qed.

(** [gees] gives A = V' T V with the rows of V orthonormal and T lower quasi-triangular. *)
Theorem C146_schur : forall gees_ n a vs, is_gees gees_ -> 1 <= n -> length a = n * n -> length vs = n * n ->
  let s := gees F gees_ n a (Some vs) in s_info F s = 0%Z ->
  exists v, s_vs F s = Some v /\
    (forall r c, r < n -> c < n -> mat n a r c = total n (fun q => fmul (mat n v q r) (total n (fun p => fmul (mat n (s_a F s) q p) (mat n v p c))))) /\
    (forall r c, r < n -> c < n -> total n (fun p => fmul (mat n v r p) (mat n v c p)) = if Nat.eqb r c then f1 else f0) /\
    (forall r c, r < n -> c < n -> r + 1 < c -> mat n (s_a F s) r c = f0).
Proof.
  intros gees_ n a vs G N La Lv s Ok. assert (Pre : gees_pre {| jobvs := given (Some vs); sort := false; sn := n; sa := a; slda := n; svs := Some vs; ldvs := n; slwork := Nat.max 1 (n * 3); swork := Nat.max 1 (n * 3) |}).
  { unfold gees_pre, room. cbn [jobvs sort sn sa slda svs ldvs slwork swork]. split; [reflexivity|]. split; [lia|]. split; [exact La|]. split; [|lia].
    split; [lia|]. intros _. split; [lia|]. exists vs. auto. }
  specialize (G _ Pre). unfold s, gees in *. cbn [s_info s_vs s_a] in *. set (o := gees_ _) in *. destruct (G Ok) as (T & H). cbn [jobvs sort sn sa slda svs ldvs slwork swork] in *.
  destruct (H eq_refl) as (v & E & HA & HO). exists v. split; [exact E|]. split; [|split].
  - intros r c Rr Cc. etransitivity; [exact (HA c r Cc Rr)|]. apply total_ext. intros q _. unfold fort, mat.
    etransitivity; [|apply (Radd_0_l Rth)]. etransitivity; [symmetry; apply (Radd_0_l Rth)|]. f_equal.
    rewrite (Rmul_comm Rth). f_equal. apply total_ext. intros p _. apply (Rmul_comm Rth).
  - intros r c Rr Cc. exact (HO r c Rr Cc).
  - intros r c Rr Cc L. apply (T c r); auto.
Qed.
(** Without a place for vectors the eigenvalues and the triangular matrix are still found. *)
Theorem C146_no_vectors : forall gees_ n a, is_gees gees_ -> 1 <= n -> length a = n * n ->
  let s := gees F gees_ n a None in s_info F s = 0%Z -> forall r c, r < n -> c < n -> r + 1 < c -> mat n (s_a F s) r c = f0.
Proof.
  intros gees_ n a G N La s Ok. assert (Pre : gees_pre {| jobvs := @given (list F) None; sort := false; sn := n; sa := a; slda := n; svs := None; ldvs := n; slwork := Nat.max 1 (n * 3); swork := Nat.max 1 (n * 3) |}).
  { unfold gees_pre, room. cbn [jobvs sort sn sa slda svs ldvs slwork swork given]. split; [reflexivity|]. split; [lia|]. split; [exact La|]. split; [|lia]. split; [lia|discriminate]. }
  specialize (G _ Pre). unfold s, gees in *. cbn [s_info s_vs s_a] in *. set (o := gees_ _) in *. destruct (G Ok) as (T & _). cbn [jobvs sort sn sa slda svs ldvs slwork swork] in *.
  intros r c Rr Cc L. apply (T c r); auto.
Qed.
End Exact.

(** * Witnesses over the integers *)
Local Open Scope Z_scope.
Definition eqb_list (x y : list Z) : bool := if list_eq_dec Z.eq_dec x y then true else false.
(** A routine that knows the eigenvalues of two matrices and of any other says that it failed. *)
Definition knows (i : geev_in Z) : geev_out Z :=
  if Nat.eqb (gn Z i) 2 && Nat.eqb (lda Z i) 2 && Nat.eqb (ldvl Z i) 2 && Nat.eqb (ldvr Z i) 2 && eqb_list (ga Z i) [0; -1; 1; 0] then
    {| oa := [0; 0; 0; 0]; owr := [0; 0]; owi := [1; -1]; ovl := Some [1; 0; 0; 1]; ovr := Some [1; 0; 0; 1]; oinfo := 0 |}
  else if Nat.eqb (gn Z i) 2 && Nat.eqb (lda Z i) 2 && Nat.eqb (ldvl Z i) 2 && Nat.eqb (ldvr Z i) 2 && eqb_list (ga Z i) [2; 1; 0; 3] then
    {| oa := [0; 0; 0; 0]; owr := [2; 3]; owi := [0; 0]; ovl := Some [1; 0; 1; 1]; ovr := Some [1; -1; 0; 1]; oinfo := 0 |}
  else {| oa := []; owr := []; owi := []; ovl := None; ovr := None; oinfo := 1 |}.
Local Notation is_geev_Z := (is_geev 0 Z.add Z.mul Z.sub Z.opp (fun x => 0 <? x)).
Lemma below2 : forall k, (k < 2)%nat -> k = 0%nat \/ k = 1%nat. Proof. lia. Qed.
Lemma knows_geev : is_geev_Z knows.
Proof.
  intros i _. unfold knows, geev_post, eqb_list.
  destruct (Nat.eqb (gn Z i) 2) eqn:E1; [|discriminate]. destruct (Nat.eqb (lda Z i) 2) eqn:E2; [|discriminate].
  destruct (Nat.eqb (ldvl Z i) 2) eqn:E3; [|discriminate]. destruct (Nat.eqb (ldvr Z i) 2) eqn:E4; [|discriminate]. cbn [andb].
  apply Nat.eqb_eq in E1, E2, E3, E4. rewrite E1, E2, E3, E4.
  destruct (list_eq_dec Z.eq_dec (ga Z i) [0; -1; 1; 0]) as [Ea|_]; [|destruct (list_eq_dec Z.eq_dec (ga Z i) [2; 1; 0; 3]) as [Ea|_]; [|discriminate]];
    rewrite Ea; intros _ j pair J W; destruct (below2 j J) as [-> | ->]; destruct pair; cbn in W; try discriminate W; cbn [oinfo owr owi ovl ovr at_ nth];
    (split; [intros; repeat split; first [lia | discriminate | reflexivity]|split; intros _; eexists; (split; [reflexivity|]); intros k K; destruct (below2 k K) as [-> | ->]; reflexivity]).
Qed.
Example C146_real_example : let e := geev Z knows 2 [2; 1; 0; 3] (Some [0; 0; 0; 0]) (Some [0; 0; 0; 0]) in
  is_geev_Z knows /\ e_info Z e = 0 /\ at_ 0 (e_wi Z e) 1 = 0 /\ e_wr Z e = [2; 3] /\ e_vr Z e = Some [1; 0; 1; 1] /\ e_vl Z e = Some [1; -1; 0; 1].
Proof. split; [exact knows_geev|]. repeat split. Qed.
Example C146_pair_example : let e := geev Z knows 2 [0; -1; 1; 0] None (Some [0; 0; 0; 0]) in
  is_geev_Z knows /\ e_info Z e = 0 /\ at_ 0 (e_wi Z e) 0 = 1 /\ e_vr Z e = Some [1; 0; 0; 1].
Proof. split; [exact knows_geev|]. repeat split. Qed.
(** Read as LAPACK says, the rows for a pair are no eigenvector of the first eigenvalue. *)
Theorem C146_lapack_convention_refuted : exists geev_ n a vr e l, is_geev_Z geev_ /\ e = geev Z geev_ n a None (Some vr) /\ e_info Z e = 0 /\
  at_ 0 (e_wi Z e) 0 > 0 /\ e_vr Z e = Some l /\
  ~ right_vector 0 Z.add Z.mul Z.sub n (mat 0 n a) (at_ 0 (e_wr Z e) 0, at_ 0 (e_wi Z e) 0) (fun c => (mat 0 n l 0 c, mat 0 n l 1 c)).
Proof.
  exists knows, 2%nat, [0; -1; 1; 0], [0; 0; 0; 0]. eexists. eexists. split; [exact knows_geev|]. split; [reflexivity|]. split; [reflexivity|]. split; [reflexivity|]. split; [reflexivity|].
  intros H. specialize (H 0%nat ltac:(lia)). vm_compute in H. discriminate H.
Qed.
(** The same for [gees]. *)
Definition knows_schur (i : gees_in Z) : gees_out Z :=
  if Nat.eqb (sn Z i) 2 && Nat.eqb (slda Z i) 2 && Nat.eqb (ldvs Z i) 2 && eqb_list (sa Z i) [2; 1; 0; 3] then
    {| osa := [3; 0; 1; 2]; oswr := [3; 2]; oswi := [0; 0]; ovs := Some [0; 1; 1; 0]; osinfo := 0 |}
  else {| osa := []; oswr := []; oswi := []; ovs := None; osinfo := 1 |}.
Lemma knows_gees : is_gees 0 1 Z.add Z.mul knows_schur.
Proof.
  intros i _. unfold knows_schur, gees_post, eqb_list.
  destruct (Nat.eqb (sn Z i) 2) eqn:E1; [|discriminate]. destruct (Nat.eqb (slda Z i) 2) eqn:E2; [|discriminate]. destruct (Nat.eqb (ldvs Z i) 2) eqn:E3; [|discriminate]. cbn [andb].
  apply Nat.eqb_eq in E1, E2, E3. rewrite E1, E2, E3. destruct (list_eq_dec Z.eq_dec (sa Z i) [2; 1; 0; 3]) as [Ea|_]; [|discriminate]. rewrite Ea. intros _. split.
  - intros r k Rr K L. lia.
  - intros _. eexists. split; [reflexivity|]. split; intros r k Rr K; destruct (below2 r Rr) as [-> | ->], (below2 k K) as [-> | ->]; reflexivity.
Qed.
Example C146_schur_example : let s := gees Z knows_schur 2 [2; 1; 0; 3] (Some [0; 0; 0; 0]) in
  is_gees 0 1 Z.add Z.mul knows_schur /\ s_info Z s = 0 /\ s_vs Z s = Some [0; 1; 1; 0] /\ s_a Z s = [3; 0; 1; 2].
Proof. split; [exact knows_gees|]. repeat split. Qed.
