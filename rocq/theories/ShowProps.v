(** Properties of printed arrays: json.cpp's formatView and gnuplot.cpp. *)
From Coq Require Import ZArith Bool List Lia ZifyBool String.
From Verif Require Import Base StrModel StrSpec StrProof GeoModel GeoSpec GeoProof FunProof GeoProps JsonModel ShowModel ShowSpec.
Import ListNotations.
Local Notation length := List.length.
Local Open Scope list_scope.
Local Open Scope Z_scope.

(** * Loops that print *)
Lemma cat_sep : forall s e l i body last, l <> [] -> last = i + Z.of_nat (length l) - 1 ->
  (forall k x, nth_error l k = Some x -> body (i + Z.of_nat k) = Ok (x ++ if i + Z.of_nat k =? last then e else s)) ->
  cat_loop (length l) i body = Ok (sep s l ++ e).
Proof.
  intros s e l. induction l as [|x l IH]; intros i body last Hl Hlast H; [congruence|]. cbn [length cat_loop].
  pose proof (H O x eq_refl) as H0. replace (i + Z.of_nat 0) with i in H0 by lia. rewrite H0. cbn [obind sep]. destruct l as [|y l].
  - cbn [length cat_loop obind]. cbn [length] in Hlast. replace (i =? last) with true by lia. rewrite app_nil_r. reflexivity.
  - rewrite (IH (i + 1) body last); [|discriminate|cbn [length] in *; lia|].
    + cbn [obind]. cbn [length] in Hlast. replace (i =? last) with false by lia. rewrite <- !app_assoc. reflexivity.
    + intros k z Hk. replace (i + 1 + Z.of_nat k) with (i + Z.of_nat (S k)) by lia. apply H. exact Hk.
Qed.
Lemma cat_concat : forall l i body, (forall k x, nth_error l k = Some x -> body (i + Z.of_nat k) = Ok x) -> cat_loop (length l) i body = Ok (List.concat l).
Proof.
  intros l. induction l as [|x l IH]; intros i body H; [reflexivity|]. cbn [length cat_loop List.concat].
  pose proof (H O x eq_refl) as H0. replace (i + Z.of_nat 0) with i in H0 by lia. rewrite H0. cbn [obind]. rewrite (IH (i + 1) body); [reflexivity|].
  intros k z Hk. replace (i + 1 + Z.of_nat k) with (i + Z.of_nat (S k)) by lia. apply H. exact Hk.
Qed.
Lemma map_nth_error_inv : forall {X Y} (f : X -> Y) l k y, nth_error (map f l) k = Some y -> exists x, nth_error l k = Some x /\ y = f x.
Proof. intros X Y f l k y H. rewrite nth_error_map in H. destruct (nth_error l k); [injection H as <-; eauto|discriminate]. Qed.
Lemma nth_error_lt : forall {X} (l : list X) k x, nth_error l k = Some x -> (k < length l)%nat.
Proof. intros X l k x H. apply nth_error_Some. congruence. Qed.
Lemma place_onto : forall r k, positive r -> 0 <= k < prod r -> exists ir, in_range r ir /\ place r ir = k.
Proof.
  induction r as [|d r IH]; intros k Hp Hk; cbn [prod] in Hk; [exists []; split; [constructor|cbn; lia]|]. inversion Hp as [|? ? Hd Hr]; subst.
  pose proof (prod_pos _ Hr). destruct (IH (k mod prod r) Hr) as (ir & H1 & H2); [apply Z.mod_pos_bound; lia|].
  exists (k / prod r :: ir). split.
  - constructor; [|auto]. split; [apply Z.div_pos; lia|apply Z.div_lt_upper_bound; lia].
  - cbn [place]. rewrite H2. rewrite (Z.div_mod k (prod r)) at 3 by lia. lia.
Qed.

Section Show.
Variable A : Type.
Variable fmt : A -> str.
Lemma print_ok : forall (m : mem A) o i off x, offset o = off -> cell m (o_arr o) (off + i) = Some x -> print_at A fmt m o i = Ok (fmt x).
Proof. intros m o i off x H1 H2. unfold print_at. rewrite H1, rd_cell, H2. reflexivity. Qed.

(** C99 *)
Theorem C99_vector : forall (m : mem A) o n off ind xs, fits m o [n] off -> Z.of_nat (length xs) = n -> row_is m o [] xs ->
  formatView A fmt m o ind = Ok ([91] ++ sep (txt ", ") (map fmt xs) ++ [93]).
Proof.
  intros m o n off ind xs Ho Hl Hrow. unfold formatView. rewrite (fits_dim _ _ _ _ _ Ho). cbn [length Z.of_nat Pos.of_succ_nat Z.ltb Z.compare Pos.compare Pos.compare_cont obind].
  rewrite (fits_size _ _ _ _ _ Ho). cbn [obind prod]. rewrite Z.mul_1_r. unfold cat_to. pose proof (fits_pos _ _ _ _ _ Ho) as Pn. apply Forall_inv in Pn.
  replace (Z.to_nat n) with (length (map fmt xs)) by (rewrite map_length; lia).
  rewrite (cat_sep (txt ", ") [] _ 0 _ (n - 1)); [rewrite app_nil_r; reflexivity|destruct xs; [cbn in Hl; lia|discriminate]|rewrite map_length; lia|].
  intros k y Hk. apply map_nth_error_inv in Hk. destruct Hk as (x & Hk & ->). pose proof (nth_error_lt _ _ _ Hk).
  rewrite (print_ok m o _ off x); [reflexivity|apply (fits_offset _ _ _ _ _ Ho)|].
  rewrite <- Hk. rewrite <- (row_cells A m o [] n off [] xs Ho) by (auto; constructor). cbn [place]. f_equal. lia.
Qed.

Lemma matrix_ok : forall (m : mem A) o r R C off ir ind rows, fits m o (r ++ [R; C]) off -> in_range r ir -> rows_are m o ir R C rows ->
  cat_to R (fun j =>
    let* t := cat_to C (fun i =>
      let* a := imul (place r ir) R in let* a := imul a C in
      let* b := imul j C in let* a := iadd a b in let* a := iadd a i in
      let* x := print_at A fmt m o a in
      Ok (x ++ (if negb (j =? R - 1) || negb (i =? C - 1) then txt "," else []) ++ (if i =? C - 1 then [] else txt " "))) in
    Ok (spaces (ind + 2) ++ t ++ [10])) =
  Ok (sep [44; 10] (map (fun r => spaces (ind + 2) ++ sep (txt ", ") r) (map (map fmt) rows)) ++ [10]).
Proof.
  intros m o r R C off ir ind rows Ho Hir [Hlen Hrows]. pose proof (fits_pos _ _ _ _ _ Ho) as Hpos. apply positive_app in Hpos. destruct Hpos as [Pr Pd].
  inversion Pd as [|? ? PR PC0]; subst x l. apply Forall_inv in PC0. rename PC0 into PC. pose proof (place_range _ _ Hir) as Pl. pose proof (fits_prod _ _ _ _ _ Ho) as Fp. rewrite prod_app, prod2 in Fp.
  unfold cat_to at 1. replace (Z.to_nat R) with (length (map (fun r => spaces (ind + 2) ++ sep (txt ", ") r) (map (map fmt) rows))) by (rewrite !map_length; lia).
  apply (cat_sep [44; 10] [10] _ 0 _ (R - 1)); [destruct rows; [cbn in Hlen; lia|discriminate]|rewrite !map_length; lia|].
  intros j y Hj. apply map_nth_error_inv in Hj. destruct Hj as (row' & Hj & ->). apply map_nth_error_inv in Hj. destruct Hj as (row & Hj & ->).
  destruct (Hrows j row Hj) as [Hc Hrow]. pose proof (nth_error_lt _ _ _ Hj) as Lj. rewrite Z.add_0_l.
  unfold cat_to. replace (Z.to_nat C) with (length (map fmt row)) by (rewrite map_length; lia).
  rewrite (cat_sep (txt ", ") (if Z.of_nat j =? R - 1 then [] else [44]) _ 0 _ (C - 1)); [|destruct row; [cbn in Hc; lia|discriminate]|rewrite map_length; lia|].
  - cbn [obind]. destruct (Z.of_nat j =? R - 1); rewrite <- ?app_assoc; reflexivity.
  - intros i y Hi. apply map_nth_error_inv in Hi. destruct Hi as (x & Hi & ->). pose proof (nth_error_lt _ _ _ Hi) as Li. rewrite !Z.add_0_l.
    assert (RC : R <= R * C) by nia. assert (B5 : (place r ir + 1) * (R * C) <= prod r * (R * C)) by (apply Z.mul_le_mono_nonneg_r; lia).
    assert (B0 : 0 <= place r ir * R) by (apply Z.mul_nonneg_nonneg; lia). assert (B1 : place r ir * R <= place r ir * (R * C)) by (apply Z.mul_le_mono_nonneg_l; lia).
    assert (B2 : place r ir * R * C = place r ir * (R * C)) by lia. assert (B3 : 0 <= Z.of_nat j * C) by (apply Z.mul_nonneg_nonneg; lia).
    assert (B6 : (Z.of_nat j + 1) * C <= R * C) by (apply Z.mul_le_mono_nonneg_r; lia). assert (B4 : Z.of_nat j * C + Z.of_nat i < R * C) by lia.
    rewrite imul_in by (apply in_int_small; lia). cbn [obind]. rewrite imul_in by (apply in_int_small; lia). cbn [obind].
    rewrite imul_in by (apply in_int_small; lia). cbn [obind]. rewrite iadd_in by (apply in_int_small; lia). cbn [obind]. rewrite iadd_in by (apply in_int_small; lia). cbn [obind].
    rewrite (print_ok m o _ off x); [|apply (fits_offset _ _ _ _ _ Ho)|].
    + cbn [obind]. destruct (Z.of_nat i =? C - 1), (Z.of_nat j =? R - 1); reflexivity.
    + rewrite <- Hi, <- (Hrow i Li), <- app_assoc. cbn [app]. rewrite (shown_in A m o _ _ _ Ho) by (apply Forall2_app; [auto|constructor; [lia|constructor; [lia|constructor]]]).
      rewrite place_app, place2, prod2 by (apply in_range_length; auto). f_equal. lia.
Qed.
Theorem C99_matrix : forall (m : mem A) o R C off ind rows, fits m o [R; C] off -> rows_are m o [] R C rows ->
  formatView A fmt m o ind = Ok (matrix_text ind (map (map fmt) rows)).
Proof.
  intros m o R C off ind rows Ho HR. unfold formatView. rewrite (fits_dim _ _ _ _ _ Ho). cbn [length Z.of_nat Pos.of_succ_nat Pos.succ Z.ltb Z.compare Pos.compare Pos.compare_cont obind].
  change (2 - 2) with 0. change (2 - 1) with 1. cbn [Z.to_nat seq fold_left obind]. rewrite !(fits_shape A m o _ _ _ Ho) by (cbn [length]; lia). cbn [obind nth Z.to_nat Pos.to_nat Pos.iter_op].
  unfold cat_to at 1. cbn [Z.to_nat Pos.to_nat Pos.iter_op cat_loop].
  pose proof (matrix_ok m o [] R C off [] ind rows Ho ltac:(constructor) HR) as E. cbn [place] in E.
  change (Pos.to_nat 1) with 1%nat. cbn [cat_loop nth]. rewrite E. cbn [obind]. unfold matrix_text. change (0 =? 1 - 1) with true. cbn iota. rewrite ?app_nil_r, <- ?app_assoc. reflexivity.
Qed.
Lemma nmats_ok : forall (m : mem A) o r d off, fits m o (r ++ d) off -> prod r <= INT_MAX ->
  fold_left (fun p i => let* p := p in let* s := shape A m o (Z.of_nat i) in imul p s) (seq 0 (length r)) (Ok 1) = Ok (prod r).
Proof.
  intros m o r d off Ho Hm. assert (G : forall b a, r = a ++ b ->
    fold_left (fun p i => let* p := p in let* s := shape A m o (Z.of_nat i) in imul p s) (seq (length a) (length b)) (Ok (prod a)) = Ok (prod r)).
  { induction b as [|x b IH]; intros a E; cbn [length seq fold_left]; [rewrite app_nil_r in E; subst; auto|]. cbn [obind].
    rewrite (fits_shape A m o _ _ _ Ho) by (subst r; rewrite !app_length; cbn [length]; lia). cbn [obind]. rewrite Nat2Z.id.
    replace (nth (length a) (r ++ d) 0) with x by (subst r; rewrite <- app_assoc, app_nth2, Nat.sub_diag by lia; reflexivity).
    pose proof (fits_pos _ _ _ _ _ Ho) as Hpos. apply positive_app in Hpos. destruct Hpos as [Pr _]. rewrite E in Pr, Hm. apply positive_app in Pr. destruct Pr as [Pa Pb].
    pose proof (prod_pos _ Pa). pose proof (prod_pos _ (Forall_inv_tail Pb)). apply Forall_inv in Pb. rewrite prod_app in Hm. cbn [prod] in Hm.
    rewrite imul_in by (apply in_int_small; nia). specialize (IH (a ++ [x])). rewrite app_length in IH. cbn [length] in IH. replace (S (length a)) with (length a + 1)%nat by lia.
    rewrite prod_app in IH. cbn [prod] in IH. rewrite Z.mul_1_r in IH. apply IH. rewrite E, <- app_assoc. reflexivity. }
  apply (G r []). reflexivity.
Qed.
Theorem C99_tensor : forall (m : mem A) o r R C off ind mats, fits m o (r ++ [R; C]) off -> r <> [] -> Z.of_nat (length mats) = prod r ->
  (forall ir mat, in_range r ir -> nth_error mats (Z.to_nat (place r ir)) = Some mat -> rows_are m o ir R C mat) ->
  formatView A fmt m o ind = Ok (tensor_text ind (r ++ [R; C]) (map (map (map fmt)) mats)).
Proof.
  intros m o r R C off ind mats Ho Hr Hl HM. pose proof (fits_pos _ _ _ _ _ Ho) as Hpos. apply positive_app in Hpos. destruct Hpos as [Pr Pd].
  inversion Pd as [|? ? PR PC0]; subst x l. apply Forall_inv in PC0. rename PC0 into PC. pose proof (fits_prod _ _ _ _ _ Ho) as Fp. rewrite prod_app, prod2 in Fp. pose proof (prod_pos _ Pr).
  assert (Lr : (0 < length r)%nat) by (destruct r; [congruence|cbn; lia]).
  unfold formatView. rewrite (fits_dim _ _ _ _ _ Ho). set (sh := r ++ [R; C]) in *. assert (Ls : length sh = (length r + 2)%nat) by (unfold sh; rewrite app_length; reflexivity).
  rewrite Ls. replace (2 <? Z.of_nat (length r + 2)) with true by lia. replace (Z.of_nat (length r + 2) <? 2) with false by lia.
  unfold cat_to at 1. replace (Z.to_nat (Z.of_nat (length r + 2))) with (length (map dec sh)) by (rewrite map_length; lia).
  rewrite (cat_sep (txt "x") [] _ 0 _ (Z.of_nat (length r + 2) - 1)); [|unfold sh; destruct r; discriminate|rewrite map_length; lia|].
  2:{ intros k y Hk. apply map_nth_error_inv in Hk. destruct Hk as (x & Hk & ->). pose proof (nth_error_lt _ _ _ Hk). rewrite (fits_shape A m o _ _ _ Ho) by lia. cbn [obind].
      rewrite Z.add_0_l, Nat2Z.id, (nth_error_nth _ _ _ Hk). reflexivity. }
  cbn [obind]. replace (Z.to_nat (Z.of_nat (length r + 2) - 2)) with (length r) by lia. assert (RC : 1 <= R * C) by nia. assert (PP : prod r * 1 <= prod r * (R * C)) by (apply Z.mul_le_mono_nonneg_l; lia). rewrite (nmats_ok m o r [R; C] off Ho) by lia. cbn [obind].
  rewrite !(fits_shape A m o _ _ _ Ho) by lia. cbn [obind].
  replace (Z.to_nat (Z.of_nat (length r + 2) - 2)) with (length r) by lia. replace (Z.to_nat (Z.of_nat (length r + 2) - 1)) with (S (length r)) by lia.
  replace (nth (length r) sh 0) with R by (unfold sh; rewrite app_nth2, Nat.sub_diag by lia; reflexivity).
  replace (nth (S (length r)) sh 0) with C by (unfold sh; rewrite app_nth2 by lia; replace (S (length r) - length r)%nat with 1%nat by lia; reflexivity).
  unfold cat_to at 1. replace (Z.to_nat (prod r)) with (length (map (matrix_text ind) (map (map (map fmt)) mats))) by (rewrite !map_length; lia).
  rewrite (cat_sep [10] [] _ 0 _ (prod r - 1)); [|destruct mats; [cbn in Hl; lia|discriminate]|rewrite !map_length; lia|].
  - cbn [obind]. unfold tensor_text. rewrite ?app_nil_r, <- ?app_assoc. reflexivity.
  - intros k y Hk. apply map_nth_error_inv in Hk. destruct Hk as (mt & Hk & ->). apply map_nth_error_inv in Hk. destruct Hk as (mat & Hk & ->). pose proof (nth_error_lt _ _ _ Hk).
    destruct (place_onto r (Z.of_nat k) Pr) as (ir & Hir & Hp); [lia|]. rewrite Z.add_0_l, <- Hp.
    rewrite (matrix_ok m o r R C off ir ind mat Ho Hir) by (apply HM; [auto|rewrite Hp, Nat2Z.id; auto]). cbn [obind]. unfold matrix_text.
    destruct (place r ir =? prod r - 1); rewrite <- ?app_assoc; reflexivity.
Qed.

(** * gnuplot *)
Hypothesis fmt_text : forall x, ~ In 0 (fmt x).
Lemma puts_text : forall s, ~ In 0 s -> puts s = s ++ [10].
Proof. intros s H. unfold puts. rewrite c_str_id; auto. Qed.
Lemma plot_vector_ok : forall (m : mem A) o n off xs, fits m o [n] off -> Z.of_nat (length xs) = n -> row_is m o [] xs ->
  plot_vector A fmt m o = Ok (List.concat (map (fun x => x ++ [10]) (map fmt xs))).
Proof.
  intros m o n off xs Ho Hl Hrow. unfold plot_vector. rewrite (fits_size _ _ _ _ _ Ho). cbn [obind prod]. rewrite Z.mul_1_r. unfold cat_to.
  replace (Z.to_nat n) with (length (map (fun x => x ++ [10]) (map fmt xs))) by (rewrite !map_length; lia). apply cat_concat.
  intros k y Hk. apply map_nth_error_inv in Hk. destruct Hk as (x' & Hk & ->). apply map_nth_error_inv in Hk. destruct Hk as (x & Hk & ->). pose proof (nth_error_lt _ _ _ Hk).
  rewrite (print_ok m o _ off x); [cbn [obind]; rewrite puts_text by apply fmt_text; reflexivity|apply (fits_offset _ _ _ _ _ Ho)|].
  rewrite <- Hk. rewrite <- (row_cells A m o [] n off [] xs Ho) by (auto; constructor). cbn [place]. f_equal. lia.
Qed.
Lemma plot_matrix_ok : forall (m : mem A) o R C off cols, fits m o [R; C] off -> Z.of_nat (length cols) = C ->
  (forall j col, nth_error cols j = Some col -> Z.of_nat (length col) = R /\ forall i, (i < length col)%nat -> shown m o [Z.of_nat i; Z.of_nat j] = nth_error col i) ->
  plot_matrix A fmt m o = Ok (List.concat (map (fun c => List.concat (map (fun x => 32 :: x) c) ++ [10]) (map (map fmt) cols))).
Proof.
  intros m o R C off cols Ho Hl Hc. unfold plot_matrix. rewrite !(fits_shape A m o _ _ _ Ho) by (cbn [length]; lia). change (Z.to_nat 1) with 1%nat. cbn [obind nth Z.to_nat].
  unfold cat_to at 1. replace (Z.to_nat C) with (length (map (fun c => List.concat (map (fun x => 32 :: x) c) ++ [10]) (map (map fmt) cols))) by (rewrite !map_length; lia). apply cat_concat.
  intros j y Hj. apply map_nth_error_inv in Hj. destruct Hj as (c' & Hj & ->). apply map_nth_error_inv in Hj. destruct Hj as (col & Hj & ->). pose proof (nth_error_lt _ _ _ Hj) as Lj.
  destruct (Hc j col Hj) as [Hr Hcol]. unfold cat_to. replace (Z.to_nat R) with (length (map (fun x => 32 :: x) (map fmt col))) by (rewrite !map_length; lia).
  rewrite (cat_concat (map (fun x => 32 :: x) (map fmt col))); [reflexivity|].
  intros i y Hi. apply map_nth_error_inv in Hi. destruct Hi as (x' & Hi & ->). apply map_nth_error_inv in Hi. destruct Hi as (x & Hi & ->). pose proof (nth_error_lt _ _ _ Hi) as Li.
  rewrite !Z.add_0_l. assert (Rt : in_range [R; C] [Z.of_nat i; Z.of_nat j]) by (constructor; [lia|constructor; [lia|constructor]]).
  rewrite (paren_in A m o _ _ _ Ho Rt). cbn [obind]. rewrite rd_cell, <- (shown_in A m o _ _ _ Ho Rt), Hcol, Hi by auto. reflexivity.
Qed.
Lemma plot_matrix_text : forall cols, ~ In 0 (List.concat (map (fun c => List.concat (map (fun x => 32 :: x) c) ++ [10]) (map (map fmt) cols))).
Proof.
  intros cols H. apply in_concat in H. destruct H as (t & Ht & H0). apply in_map_iff in Ht. destruct Ht as (c & <- & Hc). apply in_map_iff in Hc. destruct Hc as (col & <- & _).
  apply in_app_or in H0. destruct H0 as [H0|[H0|[]]]; [|discriminate]. apply in_concat in H0. destruct H0 as (t & Ht & H0). apply in_map_iff in Ht. destruct Ht as (u & <- & Hu).
  apply in_map_iff in Hu. destruct Hu as (x & <- & _). destruct H0 as [H0|H0]; [discriminate|]. exact (fmt_text x H0).
Qed.
Lemma says_ok : forall m l t, says fmt m l t -> plot_line A fmt m l = (t, Ok tt).
Proof.
  intros m l t H. destruct H as [s Hs|c|o n off xs Ho Hl Hrow|o R C off cols Ho Hl Hc]; cbn [plot_line].
  - rewrite puts_text; auto.
  - reflexivity.
  - rewrite (fits_dim _ _ _ _ _ Ho). cbn [length Z.of_nat Pos.of_succ_nat Z.ltb Z.compare Pos.compare Pos.compare_cont].
    rewrite (plot_vector_ok m o n off xs Ho Hl Hrow). reflexivity.
  - rewrite (fits_dim _ _ _ _ _ Ho). cbn [length Z.of_nat Pos.of_succ_nat Pos.succ Z.ltb Z.eqb Pos.eqb Z.compare Pos.compare Pos.compare_cont].
    rewrite (plot_matrix_ok m o R C off cols Ho Hl Hc). cbn [obind send and_then snd fst]. rewrite puts_text by apply plot_matrix_text. unfold matrix_lines. rewrite <- app_assoc. reflexivity.
Qed.
Lemma plot_loop : forall m lines texts h, Forall2 (says fmt m) lines texts ->
  fold_left (fun s l => and_then s (plot_line A fmt m l)) lines (h, Ok tt) = (h ++ List.concat texts, Ok tt).
Proof.
  intros m lines texts h H. revert h. induction H as [|l t ls ts Hl Hs IH]; intros h; cbn [fold_left List.concat]; [rewrite app_nil_r; reflexivity|].
  rewrite (says_ok m l t Hl). cbn [and_then snd fst]. rewrite IH, <- app_assoc. reflexivity.
Qed.
Lemma plot_head : forall f, (forall s, f = Some s -> ~ In 0 s) ->
  match f with Some f => puts (txt "set term post eps") ++ puts (txt "set output " ++ [34] ++ c_str f ++ [34]) | None => [] end = head_lines f.
Proof.
  intros [f|] H; [|reflexivity]. specialize (H f eq_refl). unfold head_lines. rewrite (c_str_id f) by auto. rewrite (puts_text (txt "set output " ++ _)).
  - rewrite <- !app_assoc. reflexivity.
  - intros X. rewrite !in_app_iff in X. cbn in X. intuition discriminate.
Qed.
(** C100 *)
Theorem C100_plot : forall m f lines texts, (forall s, f = Some s -> ~ In 0 s) -> Forall2 (says fmt m) lines texts ->
  plot A fmt m f lines = (head_lines f ++ List.concat texts, Ok tt).
Proof. intros m f lines texts Hf H. unfold plot. rewrite (plot_head f Hf). apply plot_loop. auto. Qed.
Theorem C100_stops : forall m f lines texts l e rest, (forall s, f = Some s -> ~ In 0 s) -> Forall2 (says fmt m) lines texts -> refused m l e ->
  plot A fmt m f (lines ++ l :: rest) = (head_lines f ++ List.concat texts, Throw e).
Proof.
  intros m f lines texts l e rest Hf H Hl. unfold plot. rewrite (plot_head f Hf), fold_left_app, (plot_loop m lines texts _ H). cbn [fold_left].
  assert (E : plot_line A fmt m l = ([], Throw e)).
  { destruct Hl as [| |o sh off Ho Hd]; [reflexivity|reflexivity|]. cbn [plot_line]. rewrite (fits_dim _ _ _ _ _ Ho). replace (Z.of_nat (length sh) <? 2) with false by lia.
    replace (Z.of_nat (length sh) =? 2) with false by lia. reflexivity. }
  rewrite E. cbn [and_then snd fst]. rewrite app_nil_r. induction rest as [|x rest IH]; [reflexivity|]. cbn [fold_left and_then snd]. exact IH.
Qed.
(** A command that is not in an array. *)
Theorem C100_bare_string : forall m s, plot A fmt m None (map LChar s) = (repeat 10 (length s), Ok tt).
Proof.
  intros m s. unfold plot. assert (G : forall h, fold_left (fun s l => and_then s (plot_line A fmt m l)) (map LChar s) (h, Ok tt) = (h ++ repeat 10 (length s), Ok tt)).
  { induction s as [|c s IH]; intros h; cbn [map fold_left length repeat]; [rewrite app_nil_r; reflexivity|]. cbn [plot_line and_then snd fst]. rewrite IH, <- app_assoc. reflexivity. }
  apply G.
Qed.
End Show.

Example C99_ex : let m := [[1; 2; 3; 4; 5; 6; 7; 8; 9]] in let v := mkop 0 (Some [1; 3; 1]) in let x := mkop 0 (Some [1; 2; 3; 3; 1]) in let t := mkop 0 (Some [1; 2; 4; 2; 2; 2; 1]) in
  fits m v [3] 1 /\ row_is m v [] [2; 3; 4] /\ fits m x [2; 3] 1 /\ rows_are m x [] 2 3 [[2; 3; 4]; [5; 6; 7]] /\ fits m t ([2] ++ [2; 2]) 1 /\ rows_are m t [1] 2 2 [[6; 7]; [8; 9]] /\
  formatView Z dec m v 0 = Ok (txt "[2, 3, 4]") /\
  formatView Z dec m x 2 = Ok (txt "[" ++ [10] ++ txt "    2, 3, 4," ++ [10] ++ txt "    5, 6, 7" ++ [10] ++ txt "  ]") /\
  formatView Z dec m t 0 = Ok (txt "2x2x2 tensor:" ++ [10] ++ txt "[" ++ [10] ++ txt "  2, 3," ++ [10] ++ txt "  4, 5" ++ [10] ++ txt "]" ++ [10] ++
    txt "[" ++ [10] ++ txt "  6, 7," ++ [10] ++ txt "  8, 9" ++ [10] ++ txt "]").
Proof.
  assert (E2 : forall {X} (a b : X) j r, nth_error [a; b] j = Some r -> (j = 0%nat /\ r = a) \/ (j = 1%nat /\ r = b)).
  { intros X a b [|[|[|j]]] r E; try discriminate E; injection E as <-; auto. }
  split; [fit|]. split; [intros [|[|[|k]]] Hk; [reflexivity..|cbn [length] in Hk; lia]|]. split; [fit|]. split.
  { split; [reflexivity|]. intros j row E. destruct (E2 _ _ _ _ _ E) as [(-> & ->)|(-> & ->)]; (split; [reflexivity|intros [|[|[|k]]] Hk; [reflexivity..|cbn [length] in Hk; lia]]). }
  split; [fit|]. split.
  { split; [reflexivity|]. intros j row E. destruct (E2 _ _ _ _ _ E) as [(-> & ->)|(-> & ->)]; (split; [reflexivity|intros [|[|k]] Hk; [reflexivity..|cbn [length] in Hk; lia]]). }
  split; [vm_compute; reflexivity|]. split; vm_compute; reflexivity.
Qed.
Example C100_ex : let m := [[1; 2; 3; 4; 5; 6]] in let x := mkop 0 (Some [0; 2; 3; 3; 1]) in
  says dec m (LText (txt "plot")) (txt "plot" ++ [10]) /\ refused m (LNums (mkop 0 (Some [0; 1; 6; 2; 3; 3; 1]))) "gnuplot::write(): Unknown dimension" /\
  plot Z dec m (Some (txt "f")) [LText (txt "plot"); LNums (mkop 0 None); LNums x; LNil; LText (txt "quit")] =
  (txt "set term post eps" ++ [10] ++ txt "set output " ++ [34; 102; 34; 10] ++ txt "plot" ++ [10] ++ [49; 10; 50; 10; 51; 10; 52; 10; 53; 10; 54; 10; 101; 10] ++
   txt " 1 4" ++ [10] ++ txt " 2 5" ++ [10] ++ txt " 3 6" ++ [10; 10; 101; 10], Throw "var::atype(): Undefined") /\
  plot Z dec m None (map LChar (txt "plot")) = ([10; 10; 10; 10], Ok tt).
Proof.
  split; [apply says_text; cbn; intuition discriminate|]. split; [apply (refused_dim _ _ [1; 2; 3] 0); [fit|cbn; lia]|]. split; vm_compute; reflexivity.
Qed.
