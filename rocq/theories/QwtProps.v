(** Property C123: what is plotted. *)
From Coq Require Import ZArith Bool List Lia ZifyBool.
From Verif Require Import Base StrModel StrSpec StrProof GeoModel GeoSpec GeoProof FunProof PolyProof GeoProps MatProof MatProps DftProps QwtModel.
Import ListNotations.
Local Open Scope Z_scope.

Section Curves.
Variable A : Type.
Arguments mkcurve {A}. Arguments mkplot {A}.

Lemma combine_at : forall B C (xs : list B) (ys : list C) k, nth_error (combine xs ys) k = match nth_error xs k, nth_error ys k with Some x, Some y => Some (x, y) | _, _ => None end.
Proof. induction xs as [|x xs IH]; intros [|y ys] [|k]; cbn; auto. - destruct (nth_error xs k); auto. Qed.

Lemma list_at : forall B (xs ys : list B), (forall k, nth_error xs k = nth_error ys k) -> xs = ys.
Proof. induction xs as [|x xs IH]; intros [|y ys] H; auto; try (specialize (H O); discriminate). pose proof (H O) as E. cbn in E. injection E as ->. f_equal. apply IH. intros k. apply (H (S k)). Qed.

(** A curve has as many points as the shorter of the two has elements, and pairs the elements with
    the same place in the order of rows; what was plotted before stays. *)
Theorem C123_curve : forall (m : mem A) x y shx shy offx offy title p, fits m x shx offx -> fits m y shy offy -> nul_free title ->
  exists pts, curve A m (Doubles A x) (Doubles A y) (Text title) (Some p) = Ok (Some (mkplot (p_x A p) (p_y A p) (p_curves A p ++ [mkcurve title pts]))) /\
    Z.of_nat (length pts) = Z.min (prod shx) (prod shy) /\
    forall ix iy, in_range shx ix -> in_range shy iy -> place shx ix = place shy iy ->
      exists a b, shown m x ix = Some a /\ shown m y iy = Some b /\ nth_error pts (Z.to_nat (place shx ix)) = Some (a, b).
Proof.
  intros m x y shx shy offx offy title p Fx Fy Ft. pose proof (fits_prod _ _ _ _ _ Fx) as Px. pose proof (fits_prod _ _ _ _ _ Fy) as Py. unfold hsize in *.
  set (n := Z.to_nat (Z.min (prod shx) (prod shy))). assert (Nn : n <> O) by (unfold n; lia).
  destruct (vals_ok A m (o_arr x) n offx) as [Lx Vx]; [destruct Fx as (_ & _ & ? & _); auto|unfold n; lia|].
  destruct (vals_ok A m (o_arr y) n offy) as [Ly Vy]; [destruct Fy as (_ & _ & ? & _); auto|unfold n; lia|].
  exists (combine (vals A m (o_arr x) offx n) (vals A m (o_arr y) offy n)). split; [|split].
  - unfold curve. cbn [arg_size]. rewrite (fits_size _ _ _ _ _ Fx), (fits_size _ _ _ _ _ Fy). cbn [obind]. fold n. unfold samples. destruct n as [|n'] eqn:En; [lia|].
    rewrite (fits_offset _ _ _ _ _ Fx), (fits_offset _ _ _ _ _ Fy). rewrite !rd_row_ok; try (unfold n in *; lia); try (destruct Fx as (_ & _ & ? & _); auto); try (destruct Fy as (_ & _ & ? & _); auto).
    cbn [obind label_str]. rewrite c_str_id by auto. reflexivity.
  - rewrite combine_length, Lx, Ly. unfold n. lia.
  - intros ix iy Rx Ry E. pose proof (place_range _ _ Rx). pose proof (place_range _ _ Ry).
    destruct (fits_cell A m x shx offx (place shx ix) Fx) as (a & Ea); [lia|]. destruct (fits_cell A m y shy offy (place shy iy) Fy) as (b & Eb); [lia|].
    exists a, b. rewrite (shown_in A m x shx offx), (shown_in A m y shy offy) by auto. split; auto. split; auto.
    rewrite combine_at, Vx, Vy, Z2Nat.id by (unfold n; lia). rewrite Ea, E, Eb. reflexivity.
Qed.
(** Arrays of doubles. *)
Theorem C123_vectors : forall (m : mem A) a b title p, (a < length m)%nat -> (b < length m)%nat -> nth a m [] <> [] -> nth b m [] <> [] ->
  Z.of_nat (length (nth a m [])) <= INT_MAX -> Z.of_nat (length (nth b m [])) <= INT_MAX -> nul_free title ->
  curve A m (Doubles A (mkop a None)) (Doubles A (mkop b None)) (Text title) (Some p) =
    Ok (Some (mkplot (p_x A p) (p_y A p) (p_curves A p ++ [mkcurve title (combine (nth a m []) (nth b m []))]))).
Proof.
  intros m a b title p La Lb Na Nb Ia Ib Ft.
  assert (F : forall c, nth c m [] <> [] -> Z.of_nat (length (nth c m [])) <= INT_MAX -> fits m (mkop c None) [Z.of_nat (length (nth c m []))] 0).
  { intros c Nc Ic. unfold fits. cbn [o_arr o_ip prod]. split; [discriminate|]. split; [repeat constructor; destruct (nth c m []); [congruence|cbn [length]; lia]|]. split; [lia|]. split; [lia|]. left. auto. }
  destruct (C123_curve m _ _ _ _ _ _ title p (F a Na Ia) (F b Nb Ib) Ft) as (pts & -> & L & P). cbn [prod o_arr] in *. f_equal. f_equal. f_equal. f_equal. f_equal. f_equal.
  apply list_at. intros k. rewrite combine_at. destruct (Nat.ltb_spec k (length pts)) as [K|K].
  - destruct (P [Z.of_nat k] [Z.of_nat k]) as (u & v & U & V & N); [repeat constructor; lia|repeat constructor; lia|reflexivity|].
    cbn [place prod] in N. replace (Z.to_nat (Z.of_nat k * 1 + 0)) with k in N by lia. rewrite N.
    rewrite (shown_in A _ _ _ _ _ (F a Na Ia)) in U by (repeat constructor; lia). rewrite (shown_in A _ _ _ _ _ (F b Nb Ib)) in V by (repeat constructor; lia).
    cbn [place prod o_arr] in U, V. unfold cell in U, V. replace (0 + (Z.of_nat k * 1 + 0)) with (Z.of_nat k) in U, V by lia. replace (Z.of_nat k <? 0) with false in U, V by lia. rewrite Nat2Z.id in U, V. rewrite U, V. reflexivity.
  - rewrite (proj2 (nth_error_None pts k)) by auto. destruct (nth_error (nth a m []) k) eqn:X; auto. destruct (nth_error (nth b m []) k) eqn:Y; auto.
    assert (nth_error (nth a m []) k <> None) as X' by congruence. assert (nth_error (nth b m []) k <> None) as Y' by congruence. apply nth_error_Some in X', Y'. lia.
Qed.
(** A second plot starts empty: whatever was in the window, only the curves given since are there,
    in the order given, under axes without titles. *)
Definition draw (m : mem A) (g : opd * opd * str) (w : outcome (window A)) : outcome (window A) :=
  let '(x, y, t) := g in let* w := w in curve A m (Doubles A x) (Doubles A y) (Text t) w.
Theorem C123_plot_again : forall (m : mem A) w gs,
  (forall x y t, In (x, y, t) gs -> nul_free t /\ (exists sh off, fits m x sh off) /\ exists sh off, fits m y sh off) ->
  exists cs, fold_left (fun w g => draw m g w) gs (plot A w) = Ok (Some (mkplot [] [] cs)) /\
    Forall2 (fun g c => let '(x, y, t) := g in c_title A c = t /\
      curve A m (Doubles A x) (Doubles A y) (Text t) (Some (mkplot [] [] [])) = Ok (Some (mkplot [] [] [c]))) gs cs.
Proof.
  intros m w gs. unfold plot.
  assert (H : forall cs, (forall x y t, In (x, y, t) gs -> nul_free t /\ (exists sh off, fits m x sh off) /\ exists sh off, fits m y sh off) ->
    exists cs', fold_left (fun w g => draw m g w) gs (Ok (Some (mkplot [] [] cs))) = Ok (Some (mkplot [] [] (cs ++ cs'))) /\
    Forall2 (fun g c => let '(x, y, t) := g in c_title A c = t /\
      curve A m (Doubles A x) (Doubles A y) (Text t) (Some (mkplot [] [] [])) = Ok (Some (mkplot [] [] [c]))) gs cs').
  { induction gs as [|[[x y] t] gs IH]; intros cs H.
    - exists []. rewrite app_nil_r. split; [reflexivity|constructor].
    - destruct (H x y t (or_introl eq_refl)) as (Ht & (shx & offx & Fx) & shy & offy & Fy).
      destruct (C123_curve m x y shx shy offx offy t (mkplot [] [] cs) Fx Fy Ht) as (pts & E & _).
      destruct (C123_curve m x y shx shy offx offy t (mkplot [] [] []) Fx Fy Ht) as (pts' & E' & _).
      assert (pts' = pts) as ->.
      { unfold curve in E, E'. destruct (arg_size A m (Doubles A x)) as [nx| | |]; try discriminate. destruct (arg_size A m (Doubles A y)) as [ny| | |]; try discriminate. cbn [obind] in *.
        destruct (samples A m (Doubles A x) _); try discriminate. destruct (samples A m (Doubles A y) _); try discriminate. cbn [obind] in *. cbn [p_curves p_x p_y app] in *.
        injection E as E. assert (E3 := app_inv_head _ _ _ E). injection E' as E'. congruence. }
      destruct (IH (cs ++ [mkcurve t pts])) as (cs' & E2 & F2); [intros; apply H; right; auto|].
      exists (mkcurve t pts :: cs'). cbn [fold_left draw obind]. rewrite E. cbn [p_x p_y p_curves]. rewrite E2, <- app_assoc. split; [reflexivity|].
      constructor; auto. }
  intros Hg. destruct (H [] Hg) as (cs & E & F). exists cs. auto.
Qed.
(** Nothing checks that there is a plot, nor the type of the data: the elements of any other
    type are read as if they were doubles. *)
Theorem C123_unchecked :
  (forall (m : mem A) x y t, curve A m x y t (new_window A) = UB Uninit) /\ (forall a b, axes A a b (new_window A) = UB Uninit) /\
  (forall (m : mem A) n y sh off t p, fits m y sh off -> 0 < n -> curve A m (Mistyped A n) (Doubles A y) t (Some p) = UB TypePun) /\
  (forall (m : mem A) n x sh off t p, fits m x sh off -> 0 < n -> curve A m (Doubles A x) (Mistyped A n) t (Some p) = UB TypePun).
Proof.
  split; [reflexivity|]. split; [reflexivity|]. split.
  - intros m n y sh off t p F Hn. pose proof (fits_prod _ _ _ _ _ F). unfold curve. cbn [arg_size obind]. rewrite (fits_size _ _ _ _ _ F). cbn [obind].
    destruct (Z.to_nat (Z.min n (prod sh))) eqn:E; [lia|]. reflexivity.
  - intros m n x sh off t p F Hn. pose proof (fits_prod _ _ _ _ _ F) as P. unfold hsize in P. unfold curve. cbn [arg_size obind]. rewrite (fits_size _ _ _ _ _ F). cbn [obind].
    destruct (Z.to_nat (Z.min (prod sh) n)) eqn:E; [lia|]. cbn [samples]. rewrite (fits_offset _ _ _ _ _ F), rd_row_ok; [reflexivity|destruct F as (_ & _ & ? & _); auto|lia].
Qed.
(** A nil gives a curve without points; a number one with one point at most. *)
Theorem C123_scalars : forall (m : mem A) y sh off p a b, fits m y sh off -> cell m (o_arr y) off = Some b ->
  (exists c, curve A m (Undefined A) (Doubles A y) Scalar (Some p) = Ok (Some (mkplot (p_x A p) (p_y A p) (p_curves A p ++ [c]))) /\ c_points A c = []) /\
  (exists c, curve A m (Double A a) (Doubles A y) Scalar (Some p) = Ok (Some (mkplot (p_x A p) (p_y A p) (p_curves A p ++ [c]))) /\ c_points A c = [(a, b)] /\ c_title A c = []).
Proof.
  intros m y sh off p a b F C. pose proof (fits_prod _ _ _ _ _ F) as P. unfold hsize in P. pose proof (proj1 (proj2 (proj2 F))) as Of. split; eexists.
  - split; [unfold curve; cbn [arg_size obind]; rewrite (fits_size _ _ _ _ _ F); cbn [obind]; replace (Z.to_nat (Z.min 0 (prod sh))) with O by lia; cbn [samples obind]; reflexivity|]. reflexivity.
  - split; [unfold curve; cbn [arg_size obind]; rewrite (fits_size _ _ _ _ _ F); cbn [obind]; replace (Z.to_nat (Z.min 1 (prod sh))) with 1%nat by lia; cbn [samples obind Nat.eqb];
      rewrite (fits_offset _ _ _ _ _ F), rd_row_ok by lia; cbn [vals obind]; rewrite C; reflexivity|]. split; reflexivity.
Qed.
(** The titles of the axes are the last given; a title ends at its first NUL. *)
Theorem C123_axes : forall (p : plotted A) a b ra rb, nul_free a -> nul_free b ->
  axes A (Text (a ++ 0 :: ra)) (Text (b ++ 0 :: rb)) (Some p) = Ok (Some (mkplot a b (p_curves A p))) /\ axes A (Text a) (Text b) (Some p) = Ok (Some (mkplot a b (p_curves A p))).
Proof.
  intros p a b ra rb Ha Hb. assert (C : forall s r, nul_free s -> c_str (s ++ 0 :: r) = s).
  { induction s as [|c s IH]; intros r H; [reflexivity|]. cbn [app c_str]. replace (c =? 0) with false; [|symmetry; apply Z.eqb_neq; intros ->; apply H; left; auto]. f_equal. apply IH. intros X. apply H. right. auto. }
  unfold axes. cbn [label_str]. rewrite !C, !c_str_id by auto. auto.
Qed.
End Curves.

(** The doubles are numbers here: a view of the second half of an array of twelve against an array of
    four. *)
Definition m_plot : mem Z := [[0; 1; 2; 3; 4; 5; 6; 7; 8; 9; 10; 11]; [20; 21; 22; 23]].
Definition drawing : outcome (window Z) :=
  let* w := plot Z (new_window Z) in
  let* w := curve Z m_plot (Doubles Z v23) (Doubles Z (mkop 1 None)) (Text [104; 105]) w in
  axes Z (Text [120]) (Text [121]) w.
Example C123_example : fits m_plot v23 [2; 3] 4 /\ fits m_plot (mkop 1 None) [4] 0 /\ nul_free [104; 105] /\
  drawing = Ok (Some (mkplot Z [120] [121] [mkcurve Z [104; 105] [(4, 20); (5, 21); (6, 22); (7, 23)]])) /\
  curve Z m_plot (Doubles Z (mkop 0 None)) (Doubles Z (mkop 1 None)) Scalar (Some (mkplot Z [] [] [])) = Ok (Some (mkplot Z [] [] [mkcurve Z [] [(0, 20); (1, 21); (2, 22); (3, 23)]])) /\
  curve Z m_plot (Mistyped Z 3) (Doubles Z (mkop 1 None)) Scalar (Some (mkplot Z [] [] [])) = UB TypePun /\
  curve Z m_plot (Double Z 7) (Doubles Z (mkop 1 None)) Scalar (Some (mkplot Z [] [] [])) = Ok (Some (mkplot Z [] [] [mkcurve Z [] [(7, 20)]])).
Proof.
  split; [|split; [|split; [|vm_compute; auto]]].
  - unfold fits. split; [discriminate|]. split; [repeat constructor; lia|]. cbn. unfold INT_MAX. split; [lia|]. split; [lia|]. right. reflexivity.
  - unfold fits. split; [discriminate|]. split; [repeat constructor; cbn; lia|]. cbn. unfold INT_MAX. split; [lia|]. split; [lia|]. left. auto.
  - intros [|[|[]]]; discriminate.
Qed.

(** Drawing twice in a window that had something in it. *)
Example C123_plot_again_example :
  fold_left (fun w g => draw Z m_plot g w) [(v23, mkop 1 None, [97]); (mkop 1 None, v23, [98])] (plot Z (Some (mkplot Z [120] [] [mkcurve Z [] [(1, 1)]]))) =
  Ok (Some (mkplot Z [] [] [mkcurve Z [97] [(4, 20); (5, 21); (6, 22); (7, 23)]; mkcurve Z [98] [(20, 4); (21, 5); (22, 6); (23, 7)]])).
Proof. reflexivity. Qed.

Print Assumptions C123_curve.
Print Assumptions C123_plot_again.
Print Assumptions C123_vectors.
Print Assumptions C123_unchecked.
