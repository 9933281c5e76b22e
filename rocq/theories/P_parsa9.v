(** Post equalization: blocks, spectra and the zero-phase filter. *)
From Verif Require Import Base BaseFacts M_utils M_sig M_process M_decoder M_decoder3 M_parsa2 M_parsa3
  S_decoder3 S_parsa2 S_parsa3 P_sig P_dec13 P_parsa7 P_parsa8 P_grids1.
Open Scope R_scope.

(** * Blocks *)
Lemma length_window h : (1 <= h)%nat -> length (block_window (2 * h)) = (2 * h)%nat.
Proof.
  intros H. unfold block_window. replace (Z.of_nat (2 * h) + 1)%Z with (odd h) by (unfold odd; lia).
  rewrite length_slice, length_hanning. unfold norm_idx. cbn [Z.ltb Z.compare]. lia.
Qed.
Lemma nth_window h j : (1 <= h)%nat -> (j < 2 * h)%nat -> nth j (block_window (2 * h)) 0 = hann (2 * h + 1) j.
Proof.
  intros H J. unfold block_window. replace (Z.of_nat (2 * h) + 1)%Z with (odd h) by (unfold odd; lia).
  rewrite nth_slice.
  - rewrite length_hanning. unfold norm_idx. cbn [Z.ltb Z.compare]. replace (Z.to_nat (Z.min 0 (Z.of_nat (2 * h + 1)))) with 0%nat by lia.
    apply nth_hanning; [exact H|lia].
  - rewrite length_hanning. unfold norm_idx. cbn [Z.ltb Z.compare]. lia.
Qed.
Lemma length_padded n x : length (padded n x) = (length x + 2 * n)%nat.
Proof. unfold padded. rewrite !app_length, !repeat_length. lia. Qed.
Lemma nth_padded n x i : nth i (padded n x) 0 = sig_at x (Z.of_nat i - Z.of_nat n).
Proof.
  unfold padded, sig_at. destruct (Z.leb_spec 0 (Z.of_nat i - Z.of_nat n)) as [A|A].
  - rewrite app_nth2 by (rewrite repeat_length; lia). rewrite repeat_length.
    replace (Z.to_nat (Z.of_nat i - Z.of_nat n)) with (i - n)%nat by lia.
    destruct (le_lt_dec (length x) (i - n)) as [B|B].
    + rewrite app_nth2 by exact B. rewrite (nth_overflow x) by exact B.
      destruct (le_lt_dec n (i - n - length x)) as [C|C]; [apply nth_overflow; rewrite repeat_length; exact C|apply nth_repeat_in; exact C].
    + apply app_nth1. exact B.
  - rewrite app_nth1 by (rewrite repeat_length; lia). apply nth_repeat_in. lia.
Qed.
Lemma block_ok h pad x start : (1 <= h)%nat -> (start + 2 * h <= length x + 2 * pad)%nat ->
  exists b, block_of (2 * h) (padded pad x) start = Ok b /\ length b = (2 * h)%nat /\
    forall j, (j < 2 * h)%nat -> nth j b 0 = block (2 * h) x (Z.of_nat start - Z.of_nat pad) j.
Proof.
  intros H B. unfold block_of. rewrite <- Nat2Z.inj_add.
  assert (length (slice (padded pad x) (Z.of_nat start) (Z.of_nat (start + 2 * h))) = (2 * h)%nat) as L.
  { rewrite length_slice, !norm_idx_nat by (rewrite length_padded; lia). lia. }
  rewrite bmul_same by (rewrite length_window, L by exact H; reflexivity).
  eexists. split; [reflexivity|]. split; [rewrite length_zip_mul; rewrite length_window; auto|].
  intros j J. rewrite nth_zip_mul by (rewrite length_window, L by exact H; reflexivity).
  rewrite nth_window by assumption. unfold block. f_equal.
  rewrite nth_slice by (rewrite !norm_idx_nat by (rewrite length_padded; lia); lia).
  rewrite norm_idx_nat by (rewrite length_padded; lia). rewrite nth_padded. f_equal. lia.
Qed.

(** * Spectra *)
Lemma length_fft x n : length (fft x n) = n.
Proof. unfold fft. rewrite map_length, seq_length. reflexivity. Qed.
Lemma rsum_tail n m f : (m <= n)%nat -> (forall j, (m <= j)%nat -> f j = 0) -> rsum n f = rsum m f.
Proof.
  intros H Z. replace n with (m + (n - m))%nat by lia. rewrite rsum_app, (rsum_0 (n - m)); [lra|].
  intros i _. apply Z. lia.
Qed.
Lemma nth_fft x m n f k : length x = m -> (m <= n)%nat -> (forall j, (j < m)%nat -> nth j x 0 = f j) -> (k < n)%nat ->
  nth k (fft x n) (0, 0) = (rsum m (fun j => f j * cos (2 * PI * INR (j * k) / INR n)),
                            - rsum m (fun j => f j * sin (2 * PI * INR (j * k) / INR n))).
Proof.
  intros L M F K. unfold fft. rewrite nth_map_seq by exact K.
  assert (forall c : nat -> R, rsum n (fun j => nth j x 0 * c j) = rsum m (fun j => f j * c j)) as G.
  { intros c. rewrite (rsum_tail n m) by (try exact M; intros j J; rewrite nth_overflow by lia; lra).
    apply rsum_ext. intros j J. rewrite F by exact J. reflexivity. }
  rewrite !G. reflexivity.
Qed.
Lemma cabs_fft x m n f k : length x = m -> (m <= n)%nat -> (forall j, (j < m)%nat -> nth j x 0 = f j) -> (k < n)%nat ->
  cabs (nth k (fft x n) (0, 0)) = magnitude n m f k.
Proof.
  intros L M F K. rewrite (nth_fft x m n f k) by assumption. unfold cabs, magnitude. cbn [fst snd]. f_equal. unfold Rsqr. ring.
Qed.
Lemma cabs_scal c z : 0 <= c -> cabs (c * fst z, c * snd z) = c * cabs z.
Proof.
  intros H. unfold cabs. cbn [fst snd]. replace ((c * fst z) ^ 2 + (c * snd z) ^ 2) with (c * c * (fst z ^ 2 + snd z ^ 2)) by ring.
  rewrite sqrt_mult by nra. rewrite sqrt_square by exact H. reflexivity.
Qed.
(** the real part of the inverse transform of g * fft(x) is the zero-phase filter *)
Lemma cos_shift (a b : nat) n k : (0 < n)%nat ->
  cos (2 * PI * INR (a * k) / INR n) * cos (2 * PI * INR (k * b) / INR n) + sin (2 * PI * INR (a * k) / INR n) * sin (2 * PI * INR (k * b) / INR n)
  = cos (2 * PI * INR k * IZR (Z.of_nat b - Z.of_nat a) / INR n).
Proof.
  intros H. rewrite Rplus_comm, (Rplus_comm (sin _ * _)), <- cos_minus. rewrite <- (cos_neg (_ - _)). f_equal.
  rewrite !mult_INR, minus_IZR, <- !INR_IZR_INZ. field. apply not_0_INR. lia.
Qed.
Lemma ifft_zero_phase x m n f (g : nat -> R) Y t : length x = m -> (m <= n)%nat -> (forall j, (j < m)%nat -> nth j x 0 = f j) ->
  length Y = n -> (forall k, (k < n)%nat -> nth k Y (0, 0) = (fst (nth k (fft x n) (0, 0)) * g k, snd (nth k (fft x n) (0, 0)) * g k)) ->
  (t < n)%nat -> nth t (ifft_re Y) 0 = zero_phase n m g f (Z.of_nat t).
Proof.
  intros L M F LY HY T. unfold ifft_re. rewrite LY, nth_map_seq by exact T.
  unfold zero_phase, kernel.
  rewrite (rsum_ext n _ (fun k => rsum m (fun j => f j * (g k * cos (2 * PI * INR k * IZR (Z.of_nat t - Z.of_nat j) / INR n))))).
  - rewrite rsum_swap, <- rsum_scal. apply rsum_ext. intros j _. rewrite rsum_scal. ring.
  - intros k K. rewrite HY by exact K. cbn [fst snd]. rewrite (nth_fft x m n f k) by assumption. cbn [fst snd].
    set (c := cos (2 * PI * INR (k * t) / INR n)). set (s := sin (2 * PI * INR (k * t) / INR n)).
    replace (rsum m (fun j => f j * cos (2 * PI * INR (j * k) / INR n)) * g k * c - - rsum m (fun j => f j * sin (2 * PI * INR (j * k) / INR n)) * g k * s)
      with (rsum m (fun j => f j * cos (2 * PI * INR (j * k) / INR n)) * (g k * c) + rsum m (fun j => f j * sin (2 * PI * INR (j * k) / INR n)) * (g k * s)) by ring.
    rewrite <- !rsum_scal_r, <- rsum_plus. apply rsum_ext. intros j _.
    rewrite <- (cos_shift j t n k) by lia. unfold c, s. ring.
Qed.
(** rotation *)
Lemma cos_period x (z : Z) : cos (x + 2 * IZR z * PI) = cos x.
Proof.
  destruct (Z.le_ge_cases 0 z) as [A|A].
  - rewrite <- (Z2Nat.id z A), <- INR_IZR_INZ. apply cos_period.
  - rewrite <- (cos_period (x + 2 * IZR z * PI) (Z.to_nat (- z))). f_equal.
    rewrite INR_IZR_INZ, Z2Nat.id by lia. rewrite opp_IZR. ring.
Qed.
Lemma kernel_period n g v (z : Z) : (0 < n)%nat -> kernel n g (v + z * Z.of_nat n) = kernel n g v.
Proof.
  intros H. unfold kernel. f_equal. apply rsum_ext. intros k _. f_equal.
  rewrite <- (cos_period (2 * PI * INR k * IZR v / INR n) (Z.of_nat k * z)). f_equal.
  rewrite plus_IZR, !mult_IZR, <- !INR_IZR_INZ. field. apply not_0_INR. lia.
Qed.
Lemma zero_phase_period n m g f v (z : Z) : (0 < n)%nat -> zero_phase n m g f (v + z * Z.of_nat n) = zero_phase n m g f v.
Proof.
  intros H. unfold zero_phase. apply rsum_ext. intros j _. f_equal.
  replace (v + z * Z.of_nat n - Z.of_nat j)%Z with (v - Z.of_nat j + z * Z.of_nat n)%Z by lia. apply kernel_period. exact H.
Qed.
Lemma nth_roll x d t : (t < length x)%nat -> (d < length x)%nat ->
  nth t (np_roll x d) 0 = nth ((t + (length x - d)) mod length x) x 0.
Proof. intros T D. unfold np_roll. rewrite nth_map_seq by exact T. rewrite (Nat.mod_small d) by exact D. reflexivity. Qed.
Lemma rolled_zero_phase n m g f X d t : length X = n -> (0 < n)%nat -> (forall i, (i < n)%nat -> nth i X 0 = zero_phase n m g f (Z.of_nat i)) ->
  (t < n)%nat -> (d < n)%nat -> nth t (np_roll X d) 0 = zero_phase n m g f (Z.of_nat t - Z.of_nat d).
Proof.
  intros L N HX T D. rewrite nth_roll by lia. rewrite L.
  assert ((t + (n - d)) mod n < n)%nat as B by (apply Nat.mod_upper_bound; lia).
  rewrite HX by exact B.
  pose proof (Nat.div_mod (t + (n - d)) n ltac:(lia)) as E.
  rewrite <- (zero_phase_period n m g f (Z.of_nat t - Z.of_nat d) (1 - Z.of_nat ((t + (n - d)) / n))) by exact N. f_equal. nia.
Qed.
