(** Properties of reading and writing sound files (sndfile.cpp). *)
From Coq Require Import ZArith Bool List Lia ZifyBool String.
From Verif Require Import Base StrModel StrProof GeoModel GeoSpec GeoProof FunProof PolyProof GeoProps MatProof MatProps DftProps SndModel.
Import ListNotations.
Local Notation length := List.length.
Local Open Scope list_scope.
Local Open Scope Z_scope.

Section Sound.
Variable A : Type.
(** C97 *)
Theorem C97_read : forall z fuel (m : mem A) f, s_channels A f = 1 -> Z.of_nat (length (s_samples A f)) <= INT_MAX ->
  snd_read A z fuel (Some f) m = Ok (s_rate A f, (m ++ [s_samples A f], mkop (length m) None)).
Proof.
  intros z fuel m [rate ch l] Hc Hl. cbn [s_channels s_samples s_rate] in *. subst ch. unfold snd_read, s_frames, sf_readf. cbn [s_channels s_samples s_rate].
  rewrite Z.div_1_r, imul_in by (apply in_int_small; lia). cbn [obind o_arr]. unfold s_frames. cbn [s_channels s_samples]. rewrite Z.div_1_r, Z.mul_1_r, Z.min_id, Z.mul_1_r, Nat2Z.id, firstn_all.
  destruct (wr_row_ok A (length m) l 0 (m ++ [repeat z (length l)])) as (m' & E & U); [lia|unfold arr; rewrite app_nth2, Nat.sub_diag by lia; cbn [nth]; rewrite repeat_length; lia|].
  assert (Em : m' = m ++ [l]); [clear E|rewrite E; cbn [obind]; rewrite Z.eqb_refl; cbn [negb Z.eqb Pos.eqb]; rewrite Em; reflexivity].
  destruct U as ((S1 & S2) & V & K).
  assert (EL : length m' = length (m ++ [l])) by (rewrite <- S1, !app_length; reflexivity).
  apply (nth_ext _ _ [] [] EL). intros b Hb. apply nth_ext with (d := z) (d' := z).
  - specialize (S2 b). unfold arr in S2. rewrite <- S2. destruct (Nat.ltb_spec b (length m)); [rewrite !app_nth1 by auto; auto|]. rewrite !app_nth2 by lia.
    destruct (b - length m)%nat eqn:Eb; cbn [nth]; [apply repeat_length|]. destruct n; reflexivity.
  - intros k Hk. assert (HC : cell m' b (Z.of_nat k) = cell (m ++ [l]) b (Z.of_nat k)).
    { destruct (Nat.ltb_spec b (length m)) as [L|L].
      - rewrite K by lia. rewrite !cell_app_old by auto. auto.
      - rewrite EL, app_length in Hb. cbn [length] in Hb. assert (b = length m) by lia. subst b.
        assert (Lk : (k < length l)%nat) by (specialize (S2 (length m)); unfold arr in S2; rewrite <- S2, app_nth2, Nat.sub_diag in Hk by lia; cbn [nth] in Hk; rewrite repeat_length in Hk; lia).
        rewrite V by lia. unfold cell. rewrite app_nth2, Nat.sub_diag by lia. cbn [nth]. replace (Z.of_nat k <? 0) with false by lia. f_equal. lia. }
    unfold cell in HC. replace (Z.of_nat k <? 0) with false in HC by lia. rewrite Nat2Z.id in HC.
    destruct (nth_error (nth b m' []) k) eqn:E1; [|apply nth_error_None in E1; lia]. symmetry in HC.
    rewrite (nth_error_nth _ _ _ E1), (nth_error_nth _ _ _ HC). auto.
Qed.
Theorem C97_read_channels : forall z fuel (m : mem A) f n, 2 <= s_channels A f -> 1 <= n -> Z.of_nat (length (s_samples A f)) = n * s_channels A f -> n * s_channels A f <= INT_MAX ->
  snd_read A z fuel (Some f) m = Throw "sndfile::read: Size fuckup".
Proof.
  intros z fuel m [rate ch l] n Hc Hn Hl Hm. cbn [s_channels s_samples s_rate] in *. unfold snd_read, sf_readf.
  assert (Ef : s_frames A (mksound A rate ch l) = n) by (unfold s_frames; cbn [s_channels s_samples]; rewrite Hl; apply Z.div_mul; lia).
  rewrite Ef. cbn [s_channels s_samples]. rewrite imul_in by (apply in_int_small; nia). cbn [obind o_arr].
  replace (Z.min (n * ch) n) with n by nia. 
  destruct (wr_row_ok A (length m) (firstn (Z.to_nat (n * ch)) l) 0 (m ++ [repeat z (Z.to_nat (n * ch))])) as (m' & E & U);
    [lia|unfold arr; rewrite app_nth2, Nat.sub_diag by lia; cbn [nth]; rewrite repeat_length, firstn_length; lia|].
  rewrite E. cbn [obind]. replace (n =? n * ch) with false by nia. reflexivity.
Qed.
Theorem C97_read_empty : forall z fuel (m : mem A) rate ch, 2 <= ch <= INT_MAX ->
  snd_read A z fuel (Some (mksound A rate ch [])) m = UB DivByZero.
Proof.
  intros z fuel m rate ch Hc. unfold snd_read, sf_readf.
  assert (Ef : s_frames A (mksound A rate ch []) = 0) by (unfold s_frames; cbn [s_channels s_samples length]; apply Z.div_0_l; lia).
  rewrite Ef. cbn [s_channels s_samples]. rewrite imul_in by (apply in_int_small; lia). cbn [obind o_arr Z.mul Z.min Z.compare]. rewrite firstn_nil. cbn [wr_row obind Z.eqb negb].
  replace (ch =? 1) with false by lia. cbn [negb].
  set (m1 := m ++ _). assert (E : mkview A m1 (mkop (length m) None) [0; ch] 0 = Ok (mkop (length m) (Some [0; 0; ch; ch; 1]))).
  { unfold mkview, view_ctor, m1, hsize, offset, arr. cbn [o_arr o_ip]. rewrite app_nth2, Nat.sub_diag by lia. cbn.
    rewrite imul_in by (apply in_int_small; lia). rewrite Z.mul_1_l. cbn [obind]. rewrite imul_in by (rewrite Z.mul_0_r; reflexivity). rewrite Z.mul_0_r. reflexivity. }
  rewrite E. cbn [obind]. unfold transpose_inplace, unary_broadcast.
  assert (Es : size A m1 (mkop (length m) (Some [0; 0; ch; ch; 1])) = Ok 0).
  { change (imul ch 0 = Ok 0). rewrite imul_in by (rewrite Z.mul_0_r; reflexivity). rewrite Z.mul_0_r. reflexivity. }
  rewrite Es. reflexivity.
Qed.
Theorem C97_read_missing : forall z fuel (m : mem A), snd_read A z fuel None m = Throw "sndfile::read: Failed to open file".
Proof. reflexivity. Qed.

(** C98 *)
Theorem C98_write : forall z fuel q rate (m : mem A) i n off xs, fits m i [n] off -> Z.of_nat (length xs) = n -> row_is m i [] xs ->
  snd_write A z fuel q rate m i = Ok (mksound A rate 1 (map q xs)).
Proof.
  intros z fuel q rate m i n off xs Hi Hl Hrow. unfold snd_write, sf_writef. rewrite (fits_dim _ _ _ _ _ Hi). cbn [length Z.of_nat Pos.of_succ_nat Z.ltb Z.compare Pos.compare Pos.compare_cont obind].
  rewrite (fits_size _ _ _ _ _ Hi). cbn [obind prod]. rewrite !Z.mul_1_r. pose proof (fits_prod _ _ _ _ _ Hi) as Fp. cbn [prod] in Fp. unfold hsize in Fp.
  rewrite (fits_offset _ _ _ _ _ Hi), rd_row_ok by lia. cbn [obind]. rewrite Z.eqb_refl. cbn [negb]. do 3 f_equal. rewrite <- Hl, Nat2Z.id. apply vals_is. intros k Hk.
  rewrite <- (row_cells A m i [] n off [] xs Hi) by (auto; constructor). cbn [place]. f_equal. lia.
Qed.
Theorem C98_write_row : forall z fuel q rate (m : mem A) i n off xs, fits m i [1; n] off -> Z.of_nat (length xs) = n -> row_is m i [0] xs ->
  snd_write A z fuel q rate m i = Ok (mksound A rate 1 (map q xs)).
Proof.
  intros z fuel q rate m i n off xs Hi Hl Hrow. unfold snd_write, sf_writef. rewrite (fits_dim _ _ _ _ _ Hi). cbn [length Z.of_nat Pos.of_succ_nat Pos.succ Z.ltb Z.compare Pos.compare Pos.compare_cont obind].
  rewrite (fits_shape A m i _ _ 0 Hi) by (cbn [length]; lia). cbn [obind nth Z.to_nat].
  destruct (transpose_new_ok A z fuel m i [] 1 n off Hi) as (m' & o & E & Fo & Lo & _ & _ & HV). cbn [app] in *. rewrite E. cbn [obind].
  rewrite (fits_size _ _ _ _ _ Fo), (fits_size _ _ _ _ _ Hi). cbn [obind]. rewrite !prod2 in *. pose proof (fits_pos _ _ _ _ _ Fo) as Pn. apply Forall_inv in Pn.
  rewrite (fits_offset _ _ _ _ _ Fo), rd_row_ok by lia. cbn [obind]. replace (1 * n =? n * 1) with true by lia. cbn [negb]. do 3 f_equal.
  replace (Z.to_nat (n * 1 * 1)) with (length xs) by lia. apply vals_is. intros k Hk.
  rewrite <- (Hrow k Hk). change ([0] ++ [Z.of_nat k]) with ([] ++ [0; Z.of_nat k]). rewrite <- HV by (try constructor; lia).
  rewrite (shown_in A m' o [n; 1] _ ([] ++ [Z.of_nat k; 0]) Fo) by (constructor; [lia|constructor; [lia|constructor]]). cbn [app]. rewrite place2. f_equal. lia.
Qed.
Theorem C98_write_channels : forall z fuel q rate (m : mem A) i c r R C off, fits m i (r ++ [R; C]) off -> hd 0 (r ++ [R; C]) = c -> 2 <= c ->
  snd_write A z fuel q rate m i = UB OutOfBounds.
Proof.
  intros z fuel q rate m i c r R C off Hi Hc Hc2. unfold snd_write, sf_writef. rewrite (fits_dim _ _ _ _ _ Hi), app_length. cbn [length].
  replace (1 <? Z.of_nat (length r + 2)) with true by lia.
  rewrite (fits_shape A m i _ _ 0 Hi) by (rewrite app_length; cbn [length]; lia). cbn [obind Z.to_nat]. replace (nth 0 (r ++ [R; C]) 0) with c by (rewrite <- Hc; destruct r; reflexivity).
  destruct (transpose_new_ok A z fuel m i r R C off Hi) as (m' & o & E & Fo & Lo & _ & _ & HV). rewrite E. cbn [obind].
  rewrite (fits_size _ _ _ _ _ Fo). cbn [obind]. pose proof (fits_prod _ _ _ _ _ Fo) as Fp. rewrite (fits_offset _ _ _ _ _ Fo), rd_row_over by nia. reflexivity.
Qed.
(** What has been written in one channel is read again, as far as 16 bits hold it. *)
Theorem C98_round_trip : forall z fuel q rate (m : mem A) i n off xs f, fits m i [n] off -> Z.of_nat (length xs) = n -> row_is m i [] xs ->
  snd_write A z fuel q rate m i = Ok f -> snd_read A z fuel (Some f) m = Ok (rate, (m ++ [map q xs], mkop (length m) None)).
Proof.
  intros z fuel q rate m i n off xs f Hi Hl Hrow E. rewrite (C98_write z fuel q rate m i n off xs Hi Hl Hrow) in E. injection E as <-. pose proof (fits_prod _ _ _ _ _ Hi) as Fp. cbn [prod] in Fp.
  apply (C97_read z fuel m (mksound A rate 1 (map q xs))); cbn [s_channels s_samples]; [auto|rewrite map_length; lia].
Qed.
End Sound.
Example C97_ex :
  snd_read Z 0 9 (Some (mksound Z 8000 1 [3; 1; 4])) [[7]] = Ok (8000, ([[7]; [3; 1; 4]], mkop 1 None)) /\
  snd_read Z 0 9 (Some (mksound Z 8000 2 [3; 1; 4; 1])) [[7]] = Throw "sndfile::read: Size fuckup" /\
  snd_read Z 0 9 (Some (mksound Z 8000 2 [])) [[7]] = UB DivByZero.
Proof. split; [vm_compute; reflexivity|]. split; vm_compute; reflexivity. Qed.
Example C98_ex : let m := [[9; 3; 1; 4; 1; 5; 9]] in let i := mkop 0 (Some [1; 3; 1]) in let r := mkop 0 (Some [1; 1; 3; 3; 1]) in let s := mkop 0 (Some [1; 2; 2; 2; 1]) in
  fits m i [3] 1 /\ fits m r [1; 3] 1 /\ fits m s ([] ++ [2; 2]) 1 /\ row_is m i [] [3; 1; 4] /\ row_is m r [0] [3; 1; 4] /\
  snd_write Z 0 9 (fun x => x) 8000 m i = Ok (mksound Z 8000 1 [3; 1; 4]) /\ snd_write Z 0 9 (fun x => x) 8000 m r = Ok (mksound Z 8000 1 [3; 1; 4]) /\
  snd_write Z 0 9 (fun x => x) 8000 m s = UB OutOfBounds.
Proof.
  split; [fit|]. split; [fit|]. split; [fit|]. do 2 (split; [intros [|[|[|k]]] Hk; [reflexivity..|cbn [length] in Hk; lia]|]).
  split; [vm_compute; reflexivity|]. split; vm_compute; reflexivity.
Qed.
