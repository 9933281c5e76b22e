(** Post equalization: the filter bank and the block sizes for fs >= 32000. *)
From Verif Require Import Base BaseFacts M_utils M_sig M_process M_decoder M_decoder3 M_parsa2 M_parsa3
  S_process S_decoder3 S_parsa2 S_parsa3 P_sig P_proc2 P_proc3 P_proc4 P_proc5 P_parsa10 P_parsa11.
Open Scope R_scope.

(** ** Block sizes *)
Lemma even_ceiling_unique r z z' : even_ceiling r z -> even_ceiling r z' -> z = z'.
Proof.
  intros [A B] [A' B']. apply Z.mod_divide in B; [|lia]. apply Z.mod_divide in B'; [|lia]. destruct B as [k ->]. destruct B' as [k' ->]. lia.
Qed.
Lemma blocksize_even fs f : even_ceiling (np_round (7 / f * IZR fs)) (band_blocksize fs f).
Proof.
  unfold band_blocksize. set (r := np_round _). clearbody r. set (c := zceil (IZR r / 2)).
  assert (IZR r / 2 <= IZR c) as A.
  { apply Rnot_lt_le. intro N. apply zceil_lt_iff in N. fold c in N. lia. }
  assert (IZR (c - 1) < IZR r / 2) as B by (apply zceil_lt_iff; fold c; lia).
  assert (IZR r <= IZR (c * 2)) as A' by (rewrite mult_IZR; lra). assert (IZR (c * 2 - 2) < IZR r) as B'.
  { rewrite minus_IZR, mult_IZR. rewrite minus_IZR in B. lra. }
  apply le_IZR in A'. apply lt_IZR in B'. split; [lia|]. apply Z.mod_mul. lia.
Qed.
Lemma size_value fs b f bs : f = band_freq b -> band_size fs b bs -> band_blocksize fs f = Z.of_nat bs.
Proof.
  intros -> (r & Hr & E). apply (even_ceiling_unique r); [|exact E].
  replace r with (np_round (7 / band_freq b * IZR fs)); [apply blocksize_even|].
  apply (is_round_unique _ _ (7 * IZR fs / band_freq b)); [|exact Hr].
  replace (7 * IZR fs / band_freq b) with (7 / band_freq b * IZR fs) by (unfold Rdiv; ring). apply np_round_is_round.
Qed.
Lemma size_exists fs b : 0 <= IZR fs -> 0 < band_freq b -> exists bs, band_size fs b bs.
Proof.
  intros Hf Hb. set (z := band_blocksize fs (band_freq b)).
  assert (even_ceiling (np_round (7 / band_freq b * IZR fs)) z) as E by apply blocksize_even.
  assert (0 <= 7 / band_freq b * IZR fs) as P.
  { apply Rmult_le_pos; [|exact Hf]. left. apply Rdiv_lt_0_compat; lra. }
  pose proof (np_round_nonneg _ P) as Q. exists (Z.to_nat z), (np_round (7 / band_freq b * IZR fs)). split.
  - replace (7 * IZR fs / band_freq b) with (7 / band_freq b * IZR fs) by (unfold Rdiv; ring). apply np_round_is_round.
  - rewrite Z2Nat.id by (destruct E; lia). exact E.
Qed.
Lemma sqrt2_bounds : 1414 / 1000 < sqrt 2 < 1415 / 1000.
Proof.
  split.
  - apply Rnot_le_lt. intro N. pose proof (sqrt_sqrt 2 ltac:(lra)). pose proof (sqrt_pos 2). nra.
  - apply Rnot_le_lt. intro N. pose proof (sqrt_sqrt 2 ltac:(lra)). pose proof (sqrt_pos 2). nra.
Qed.
Lemma freq0 : 6 < band_freq 0 < 7.
Proof.
  unfold band_freq. set (y := 625 / 10 / sqrt 2). pose proof sqrt2_bounds as [A B]. pose proof (sqrt_sqrt 2 ltac:(lra)) as Q.
  assert (y * sqrt 2 = 625 / 10) as E by (unfold y; field; lra). assert (44 < y < 45) as [Y1 Y2] by nra.
  pose proof (sqrt_sqrt y ltac:(lra)). pose proof (sqrt_pos y). nra.
Qed.
Lemma freq_ge b : 44 <= band_freq (S b).
Proof.
  unfold band_freq. pose proof sqrt2_bounds as [A B]. assert (1 <= 2 ^ b) as P by (apply pow_R1_Rle; lra).
  apply (Rmult_le_reg_r (sqrt 2)); [lra|]. unfold Rdiv. rewrite Rmult_assoc, Rinv_l by lra. nra.
Qed.
Lemma freq_le b : (b < 9)%nat -> band_freq (S b) <= 11400.
Proof.
  intros H. unfold band_freq. pose proof sqrt2_bounds as [A B]. assert (2 ^ b <= 256) as P.
  { replace 256 with (2 ^ 8) by lra. apply Rle_pow; [lra|lia]. }
  apply (Rmult_le_reg_r (sqrt 2)); [lra|]. unfold Rdiv. rewrite Rmult_assoc, Rinv_l by lra. nra.
Qed.
Lemma size_bounds fs b bs : (0 < fs)%Z -> 0 < band_freq b -> band_size fs b bs ->
  7 * IZR fs / band_freq b - 1 / 2 <= INR bs <= 7 * IZR fs / band_freq b + 5 / 2 /\ (bs mod 2 = 0)%nat.
Proof.
  intros Hf Hb (r & [Hr _] & [[E1 E2] E3]). apply Rabs_le_between in Hr || (unfold Rabs in Hr; destruct (Rcase_abs _) in Hr).
  all: rewrite INR_IZR_INZ; apply IZR_le in E1; apply IZR_lt in E2; rewrite plus_IZR in E2.
  all: split; [lra|]; apply Nat2Z.inj; rewrite Nat2Z.inj_mod; exact E3.
Qed.
(** the first band has the largest blocks, and all sizes are at least two *)
Lemma sizes_order fs bs0 b bs : (32000 <= fs)%Z -> band_size fs 0 bs0 -> (b < 9)%nat -> band_size fs (S b) bs ->
  (2 <= bs <= bs0)%nat /\ (bs mod 2 = 0)%nat /\ (bs0 mod 2 = 0)%nat /\ (4 <= bs0)%nat.
Proof.
  intros Hf H0 Hb H1. pose proof freq0 as [A1 A2]. pose proof (freq_ge b) as B1. pose proof (freq_le b Hb) as B2.
  apply IZR_le in Hf as Hf'. destruct (size_bounds fs 0 bs0 ltac:(lia) ltac:(lra) H0) as [[X1 X2] X3].
  destruct (size_bounds fs (S b) bs ltac:(lia) ltac:(lra) H1) as [[Y1 Y2] Y3].
  set (y0 := 7 * IZR fs / band_freq 0) in *. set (y1 := 7 * IZR fs / band_freq (S b)) in *.
  assert (y0 * band_freq 0 = 7 * IZR fs) as E0 by (unfold y0; field; lra).
  assert (y1 * band_freq (S b) = 7 * IZR fs) as E1 by (unfold y1; field; lra).
  assert (IZR fs <= y0) by nra. assert (19 <= y1) by nra. assert (y1 <= 7 * IZR fs / 44).
  { apply (Rmult_le_reg_r (band_freq (S b))); [lra|]. rewrite E1. assert (0 <= 7 * IZR fs / 44) by lra. nra. }
  split. { split; apply INR_le; [change (INR 2) with 2; lra|lra]. }
  split; [exact Y3|]. split; [exact X3|]. apply INR_le. replace (INR 4) with 4 by (cbn; lra). lra.
Qed.

(** ** The filter bank *)
Lemma centre_pow i : centre 1 (625 / 10) i = 625 / 10 * 2 ^ i.
Proof. unfold centre. unfold Rdiv at 2. rewrite Rinv_1, Rmult_1_r, Rpower_pow by lra. reflexivity. Qed.
Lemma half_step_1 : half_step 1 = sqrt 2.
Proof. unfold half_step. replace (1 / (2 * 1)) with (/ 2) by lra. apply Rpower_sqrt. lra. Qed.

Lemma INR_bins : INR (2 ^ 16) = 65536.
Proof. rewrite pow_INR. cbn. lra. Qed.
Lemma nine_bands fs : (32000 <= fs)%Z -> band_count 1 (625 / 10) (Rmin 16000 (IZR (fs / 2))) 9.
Proof.
  intros H. assert (16000 <= fs / 2)%Z as Q by (apply Z.div_le_lower_bound; lia). apply IZR_le in Q. rewrite Rmin_left by exact Q.
  pose proof sqrt2_bounds as [A B]. split; [lia|]. rewrite half_step_1. split.
  - intros i I. rewrite centre_pow. assert (2 ^ i <= 2 ^ 7) as P by (apply Rle_pow; [lra|lia]). assert (0 < 2 ^ i) by (apply pow_lt; lra).
    cbn in P. nra.
  - rewrite centre_pow. cbn. nra.
Qed.
Lemma bank_ok fs mode : (32000 <= fs <= 1000000)%Z -> mode <> OtherMode ->
  exists fuel0 g, (forall fuel, (fuel0 <= fuel)%nat ->
    frac_octave_filterbank fuel 1 (2 ^ 16) fs (625 / 10) (Some 16000) mode (5 / 10) 3 =
      Ok (g, fo_limits 1 (IZR fs) (map (centre 1 (625 / 10)) (seq 0 9)))) /\
    length g = 10%nat /\ (forall r, (r < 10)%nat -> length (nth r g []) = (2 ^ 16)%nat) /\
    forall j, (j < 2 ^ 16)%nat -> (forall r, (r < 10)%nat -> 0 <= nth j (nth r g []) 0 <= 1) /\ match mode with
      | Energy => rsum 10 (fun r => nth j (nth r g []) 0 ^ 2) = 1
      | _ => rsum 10 (fun r => nth j (nth r g []) 0) = 1
      end.
Proof.
  intros Hf Hm. assert (1 <= 2 ^ 16)%nat as HN by (apply Nat.neq_0_lt_0, Nat.pow_nonzero; lia).
  pose proof INR_bins as HI. set (N := (2 ^ 16)%nat) in *. clearbody N.
  assert (32000 <= IZR fs <= 1000000) as [F1 F2] by (split; apply IZR_le; lia).
  destruct (transitions_exist N (IZR fs) 1 (625 / 10) (5 / 10) 9 HN) as (k & P & T & _); try lra.
  pose proof sqrt2_bounds as [A B]. pose proof (sqrt_sqrt 2 ltac:(lra)) as Q2.
  assert (forall i, edge N (IZR fs) 1 (625 / 10) i * IZR fs * sqrt 2 = 2 * 65535 * (625 / 10) * 2 ^ i) as Ee.
  { intros i. unfold edge. rewrite HI, centre_pow, half_step_1. field. lra. }
  assert (separated N 9 k P) as HS.
  { split.
    - apply (separated_suff N (IZR fs) 1 (625 / 10) (5 / 10) 9 k P); try lra; auto.
      rewrite half_step_1. specialize (Ee 0%nat). rewrite pow_O in Ee. set (e := edge _ _ _ _ _) in *.
      assert (5 < e).
      { apply Rnot_le_lt. intro M. assert (e * IZR fs <= 5 * 1000000) by nra. nra. }
      nra.
    - intros i I. destruct (T i I) as [[_ T1] [T2 _]]. destruct (T i I) as [[T0 _] _]. rewrite half_step_1 in T2.
      specialize (Ee i). assert (2 ^ i <= 2 ^ 8) as Pi by (apply Rle_pow; [lra|lia]). set (e := edge _ _ _ _ _) in *.
      assert (0 <= e) by (apply edge_nonneg; [exact HN|lra|lra]).
      assert (e < 46400).
      { apply Rnot_le_lt. intro M. assert (46400 * 32000 <= e * IZR fs) by nra. replace (2 ^ 8) with 256 in Pi by lra. nra. }
      assert (IZR (Z.of_nat (P i)) <= 5 / 10 * (e * (sqrt 2 - 1)) + 1 / 2) as T3.
      { unfold Rabs in T2. destruct (Rcase_abs _) in T2; lra. }
      apply INR_lt. rewrite plus_INR, !INR_IZR_INZ. rewrite INR_IZR_INZ in HI. rewrite HI. nra. }
  destruct (filterbank_ok 1 N fs (625 / 10) (Some 16000) mode (5 / 10) 3 9 k P) as (fuel0 & g & ff & E & Lg & Lr & Eff & V); auto; try lra; try lia.
  { apply nine_bands. lia. }
  exists fuel0, g. rewrite <- Eff. split; [exact E|]. split; [exact Lg|]. split; [exact Lr|]. intros j J. apply V. exact J.
Qed.

Lemma limits_sizes fs bs : (forall b, (b < 10)%nat -> band_size fs b (bs b)) ->
  band_blocksizes fs (fo_limits 1 (IZR fs) (map (centre 1 (625 / 10)) (seq 0 9))) = map Z.of_nat (map bs (seq 0 10)).
Proof.
  intros H. destruct (limits_entries 1 (IZR fs) (625 / 10) 9 ltac:(lia)) as (_ & _ & Lo & _).
  set (ff := fo_limits _ _ _) in *.
  assert (length ff = 10%nat) as Lf.
  { unfold ff. rewrite length_limits; [rewrite map_length, seq_length; reflexivity|discriminate]. }
  assert (snd (fst (nth 0 ff (0, 0, 0))) = band_freq 0) as L0.
  { unfold ff, fo_limits. cbn [map seq length Nat.sub nth upd fst snd]. unfold band_freq. rewrite centre_pow, pow_O. unfold fo_lo.
    fold (half_step 1). rewrite half_step_1. f_equal. field. pose proof sqrt2_bounds. lra. }
  assert (forall i, (i < 9)%nat -> fst (fst (nth (S i) ff (0, 0, 0))) = band_freq (S i)) as Li.
  { intros i I. specialize (Lo i I). rewrite centre_pow, half_step_1 in Lo. destruct (nth (S i) ff (0, 0, 0)) as [[u v] w]. cbn in Lo |- *. exact Lo. }
  clearbody ff. destruct ff as [|f0 t]; [discriminate|]. cbn [nth] in L0. cbn [length] in Lf. assert (length t = 9%nat) as Lt by lia.
  unfold band_blocksizes. rewrite (size_value fs 0 _ (bs 0%nat) L0) by (apply H; lia).
  cbn [seq map]. f_equal. change [Z.of_nat (bs 1%nat); Z.of_nat (bs 2%nat); Z.of_nat (bs 3%nat); Z.of_nat (bs 4%nat); Z.of_nat (bs 5%nat); Z.of_nat (bs 6%nat); Z.of_nat (bs 7%nat); Z.of_nat (bs 8%nat); Z.of_nat (bs 9%nat)]
    with (map (fun i => Z.of_nat (bs (S i))) (seq 0 9)).
  apply (nth_ext_list 0%Z); rewrite !map_length, ?seq_length; [exact Lt|].
  intros i I. rewrite Lt in I. rewrite nth_map_seq by exact I. rewrite (nth_map_in _ t _ _ (0, 0, 0)) by lia.
  apply (size_value fs (S i)); [apply (Li i I)|apply H; lia].
Qed.
