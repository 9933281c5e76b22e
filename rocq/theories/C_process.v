(** Property theorems for /repo/spaudiopy/process.py (C24 - C32, C66). *)
From Verif Require Import Base BaseFacts M_utils M_sig M_process S_process P_proc4 P_proc5 X_process.
Open Scope R_scope.

(** ** C24 *)
Theorem C24_filterbank_complementary : forall n N_out fs f_low f_high mode overlap slope M k P,
  1 <= n -> (1 <= N_out)%nat -> (0 < fs)%Z -> 0 < f_low -> 0 <= overlap <= 1 / 2 ->
  band_count n f_low (Rmin f_high (IZR (fs / 2))) M ->
  transitions N_out (IZR fs) n f_low overlap M k P -> separated N_out M k P ->
  mode <> OtherMode ->
  exists fuel0 g ff, (forall fuel, (fuel0 <= fuel)%nat ->
    frac_octave_filterbank fuel n N_out fs f_low (Some f_high) mode overlap slope = Ok (g, ff)) /\
    length g = S M /\ (forall r, (r < S M)%nat -> length (nth r g []) = N_out) /\
    forall j, (j < N_out)%nat ->
      (forall r, (r < S M)%nat -> 0 <= nth j (nth r g []) 0 <= 1) /\
      match mode with
      | Energy => rsum (S M) (fun r => nth j (nth r g []) 0 ^ 2) = 1
      | _ => rsum (S M) (fun r => nth j (nth r g []) 0) = 1
      end.
Proof. exact filterbank_final. Qed.
Print Assumptions C24_filterbank_complementary.

(** the default upper limit; with enough bins in the lowest band neighbouring
    transitions cannot overlap *)
Theorem C24_filterbank_default_limit : forall n N_out fs f_low mode overlap slope M k P,
  1 <= n -> (1 <= N_out)%nat -> (0 < fs)%Z -> 0 < f_low -> 0 <= overlap <= 1 / 2 ->
  band_count n f_low (IZR (fs / 2)) M ->
  transitions N_out (IZR fs) n f_low overlap M k P ->
  20 <= 9 * (edge N_out (IZR fs) n f_low 0 * (half_step n - 1)) ->
  (forall i, (i < M)%nat -> (k i + P i < N_out)%nat) ->
  mode <> OtherMode ->
  exists fuel0 g ff, (forall fuel, (fuel0 <= fuel)%nat ->
    frac_octave_filterbank fuel n N_out fs f_low None mode overlap slope = Ok (g, ff)) /\
    length g = S M /\ (forall r, (r < S M)%nat -> length (nth r g []) = N_out) /\
    forall j, (j < N_out)%nat ->
      (forall r, (r < S M)%nat -> 0 <= nth j (nth r g []) 0 <= 1) /\
      match mode with
      | Energy => rsum (S M) (fun r => nth j (nth r g []) 0 ^ 2) = 1
      | _ => rsum (S M) (fun r => nth j (nth r g []) 0) = 1
      end.
Proof. exact filterbank_default. Qed.
Print Assumptions C24_filterbank_default_limit.

(** the returned band limits tile 0 .. fs/2 *)
Theorem C24_band_limits_tile : forall fuel n N_out fs f_low f_high mode overlap slope M g ff,
  0 < n -> 0 < f_low ->
  band_count n f_low (match f_high with None => IZR (fs / 2) | Some f => Rmin f (IZR (fs / 2)) end) M ->
  frac_octave_filterbank fuel n N_out fs f_low f_high mode overlap slope = Ok (g, ff) ->
  length ff = S M /\ fst (fst (nth 0 ff (0, 0, 0))) = 0 /\
  snd (nth M ff (0, 0, 0)) = IZR fs / 2 /\
  (forall b, (b < M)%nat -> snd (nth b ff (0, 0, 0)) = fst (fst (nth (S b) ff (0, 0, 0)))).
Proof. exact filterbank_tiles. Qed.
Print Assumptions C24_band_limits_tile.

Theorem C24_terminates : forall n N_out fs f_low f_high mode overlap slope, 0 < n -> 0 < f_low ->
  exists fuel0, forall fuel, (fuel0 <= fuel)%nat ->
    frac_octave_filterbank fuel n N_out fs f_low f_high mode overlap slope <> Err OutOfFuel.
Proof. exact filterbank_terminates. Qed.
Print Assumptions C24_terminates.

Theorem C24_nonpositive_f_low_never_returns :
  forall n N_out fs f_low f_high mode overlap slope, 0 < n -> f_low <= 0 ->
  (2 <= fs)%Z -> match f_high with Some f => 0 < f | None => True end -> overlap <= 1 / 2 ->
  forall fuel, frac_octave_filterbank fuel n N_out fs f_low f_high mode overlap slope = Err OutOfFuel.
Proof. exact filterbank_diverges. Qed.
Print Assumptions C24_nonpositive_f_low_never_returns.

(** without the condition that transitions lie inside the spectrum the call fails *)
Theorem C24_transition_beyond_spectrum : forall fuel n N_out fs f_low f_high mode overlap slope M k P,
  1 <= n -> (1 <= N_out)%nat -> (0 < fs)%Z -> 0 < f_low -> 0 <= overlap <= 1 / 2 ->
  band_count n f_low (match f_high with None => IZR (fs / 2) | Some f => Rmin f (IZR (fs / 2)) end) M ->
  transitions N_out (IZR fs) n f_low overlap M k P ->
  (exists i, (i < M)%nat /\ (1 <= P i)%nat /\ (N_out <= k i + P i)%nat) ->
  frac_octave_filterbank fuel n N_out fs f_low f_high mode overlap slope = Err ValueError \/
  frac_octave_filterbank fuel n N_out fs f_low f_high mode overlap slope = Err OutOfFuel.
Proof. exact filterbank_top. Qed.
Print Assumptions C24_transition_beyond_spectrum.

Theorem C24_default_limit_fails_refuted : exists n N_out fs f_low,
  n = 1 /\ N_out = 33%nat /\ fs = 32%Z /\ 0 < f_low < IZR fs /\
  forall fuel mode slope,
    (forall gf, frac_octave_filterbank fuel n N_out fs f_low None mode (1 / 2) slope <> Ok gf) /\
    exists fuel0, forall fuel, (fuel0 <= fuel)%nat ->
      frac_octave_filterbank fuel n N_out fs f_low None mode (1 / 2) slope = Err ValueError.
Proof. exact filterbank_top_refuted. Qed.
Print Assumptions C24_default_limit_fails_refuted.

(** two octave bands at 65 bins: transition lines 16 and 32, half widths 3 and 7 *)
Example C24_nonvacuous :
  band_count 1 (8 * sqrt 2) (Rmin 32 (IZR (64 / 2))) 2 /\
  transitions 65 (IZR 64) 1 (8 * sqrt 2) (1 / 2) 2 ex_k ex_P /\ separated 65 2 ex_k ex_P.
Proof. exact filterbank_example. Qed.

(** ** C25 *)
Theorem C25_exact_on_polynomials : forall N d (c : list R), (length c <= N + 1)%nat ->
  length (lagrange_delay N d) = (N + 1)%nat /\
  rsum (N + 1) (fun k => nth k (lagrange_delay N d) 0 * peval c (INR k)) = peval c d.
Proof. exact lagrange_final. Qed.
Print Assumptions C25_exact_on_polynomials.
Theorem C25_unit_dc_gain : forall N d, rsum (N + 1) (fun k => nth k (lagrange_delay N d) 0) = 1.
Proof. exact lagrange_sum. Qed.
Print Assumptions C25_unit_dc_gain.
Theorem C25_integer_delay : forall N D k, (D <= N)%nat -> (k <= N)%nat ->
  nth k (lagrange_delay N (INR D)) 0 = if Nat.eqb k D then 1 else 0.
Proof. exact lagrange_delay_int. Qed.
Print Assumptions C25_integer_delay.
(** the cubic 1 - 2x + x^3 against a third order filter *)
Example C25_nonvacuous : (length [1; -2; 0; 1]%R <= 3 + 1)%nat /\ peval [1; -2; 0; 1] (3 / 2) = 11 / 8.
Proof. split; [cbn; lia|]. unfold peval. cbn. field. Qed.

(** ** C26 *)
Theorem C26_gain_clipping : forall g t i j, 0 < t -> (i < length g)%nat -> (j < length g)%nat ->
  let o := gain_clipping g t in
  length o = length g /\
  (nth i g 0 <= t -> nth i o 0 = nth i g 0) /\
  (t < nth i g 0 -> t < nth i o 0 < 2 * t) /\
  nth i o 0 <= nth i g 0 /\
  (nth i g 0 < nth j g 0 -> nth i o 0 < nth j o 0).
Proof. exact clip_final. Qed.
Print Assumptions C26_gain_clipping.
Example C26_nonvacuous : 0 < 2 /\ nth 0 [1; 5] 0 <= 2 /\ 2 < nth 1 [1; 5] 0.
Proof. cbn. lra. Qed.

(** ** C27 *)
Theorem C27_match_loudness : forall a t La Lt,
  (0 < nr a)%nat -> (0 < nc a)%nat -> (0 < nr t)%nat -> (0 < nc t)%nat ->
  max_rms a La -> max_rms t Lt -> 0 < La -> 0 < Lt ->
  exists out s, match_loudness a t = Ok (Some out) /\ 0 < s /\
    nr out = nr a /\ nc out = nc a /\
    (forall i j, (i < nr a)%nat -> (j < nc a)%nat -> ent out i j = s * ent a i j) /\
    (forall i j, (i < nr a)%nat -> (j < nc a)%nat -> Rabs (ent out i j) <= 1) /\
    (max_rms out Lt \/ (peak out 1 /\ exists L, max_rms out L /\ L < Lt)).
Proof. exact match_loudness_final. Qed.
Print Assumptions C27_match_loudness.
(** a silent input gives NaN *)
Theorem C27_silent_input : forall a t,
  (0 < nr a)%nat -> (0 < nc a)%nat -> (0 < nr t)%nat -> (0 < nc t)%nat ->
  (forall i j, ent a i j = 0) -> match_loudness a t = Ok None.
Proof. exact match_loudness_silent. Qed.
Print Assumptions C27_silent_input.
Example C27_nonvacuous :
  let a := Mat 2 2 (fun i j => if Nat.eqb j 0 then 3 else 2) in
  let t := Mat 2 1 (fun i j => 1 / 2) in
  max_rms a 3 /\ max_rms t (1 / 2).
Proof. exact match_example. Qed.

(** ** C28 *)
Theorem C28_local_weighted_mean : forall (a : list R) n wt, 0 < n ->
  exists out, frac_octave_smoothing (Nd [length a] a) n wt = Ok (map Some out) /\
    length out = length a /\
    forall idx, (idx < length a)%nat ->
      in_window (half_step n) idx idx /\
      weighted_mean a (in_window (half_step n) idx) (nth idx out 0).
Proof. exact smoothing_final. Qed.
Print Assumptions C28_local_weighted_mean.
Theorem C28_within_window_extremes : forall (a : list R) n wt out lo hi idx, 0 < n ->
  frac_octave_smoothing (Nd [length a] a) n wt = Ok (map Some out) -> (idx < length a)%nat ->
  (forall j, (j < length a)%nat -> in_window (half_step n) idx j -> lo <= nth j a 0 <= hi) ->
  lo <= nth idx out 0 <= hi.
Proof.
  intros a n wt out lo hi idx Hn E Hi H. destruct (smoothing_final a n wt Hn) as (o & E' & L & V).
  rewrite E in E'. injection E' as E'.
  assert (out = o).
  { clear - E'. revert o E'. induction out as [|x out IH]; intros [|y o] E; try discriminate; auto.
    cbn in E. injection E as -> E. f_equal. auto. }
  subst o. apply (weighted_mean_bounds a (in_window (half_step n) idx)); auto.
  - apply V. auto.
  - intros. apply in_window_dec.
Qed.
Print Assumptions C28_within_window_extremes.
Theorem C28_zero_smoothing_rejected : forall a wt, frac_octave_smoothing a 0 wt = Err ZeroDivisionError.
Proof. exact smoothing_zero. Qed.
Print Assumptions C28_zero_smoothing_rejected.
Example C28_nonvacuous : in_window (half_step 1) 2 1 /\ in_window (half_step 1) 2 2 /\
  ~ in_window (half_step 1) 2 0 /\ ~ in_window (half_step 1) 2 3.
Proof. exact window_example. Qed.

(** ** C29 *)
Theorem C29_half_sided_Hann : forall N, (3 <= N)%Z ->
  exists w, half_sided_Hann N = Ok w /\ Z.of_nat (length w) = (N + 1)%Z /\
    (forall i, (i < length w)%nat -> 0 < nth i w 0 <= 1) /\
    (forall i j, (i <= j < length w)%nat -> nth j w 0 <= nth i w 0) /\
    (forall i, (2 * Z.of_nat i <= N + 2)%Z -> nth i w 0 = 1) /\
    nth (length w - 1) w 0 < 1.
Proof. exact half_hann_final. Qed.
Print Assumptions C29_half_sided_Hann.
Theorem C29_too_short : forall N, (N < 3)%Z -> half_sided_Hann N = Err AssertionError.
Proof. exact half_hann_short. Qed.
Print Assumptions C29_too_short.
Example C29_nonvacuous : (3 <= 8)%Z /\ (2 * Z.of_nat 5 <= 8 + 2)%Z.
Proof. lia. Qed.

(** ** C30 *)
Theorem C30_energy_decay : forall p d, energy_decay p = Some d ->
  length d = length p /\
  (forall i j, (i <= j < length p)%nat -> dB_le (nth j d None) (nth i d None)) /\
  (forall i, (i < length p)%nat ->
     (nth i d None = None <-> forall k, (i <= k < length p)%nat -> nth k p 0 = 0)) /\
  exists v, nth 0 d None = Some v /\ 0 <= v /\ (v = 0 <-> nth 0 p 0 = 0 /\ last p 0 = 0).
Proof. exact energy_decay_final. Qed.
Print Assumptions C30_energy_decay.
Theorem C30_undefined_iff_silent_or_short : forall p,
  energy_decay p = None <-> ((length p <= 1)%nat \/ forall x, In x p -> x = 0).
Proof. exact energy_decay_none. Qed.
Print Assumptions C30_undefined_iff_silent_or_short.
Example C30_nonvacuous : exists d, energy_decay [1; -2; 3; 0] = Some d.
Proof.
  destruct (energy_decay [1; -2; 3; 0]) as [d|] eqn:E; [eauto|]. exfalso.
  apply energy_decay_none in E. destruct E as [E|E]; [cbn in E; lia|].
  specialize (E 1 (or_introl eq_refl)). lra.
Qed.

(** ** C31 *)
Theorem C31_independent_of_pause : forall randn pink tn tp tp' fs reps tf pk nm,
  pulsed_noise randn pink tn tp fs reps tf pk nm = pulsed_noise randn pink tn tp' fs reps tf pk nm.
Proof. exact pulsed_noise_pause. Qed.
Print Assumptions C31_independent_of_pause.
(** pulses of the raw noise's length [L], faded, each followed by [n] zeros, the
    number of samples of the noise duration *)
Theorem C31_pulse_train : forall randn pink tn tp fs reps tf (pk : bool) n mn L,
  py_int (IZR fs * tn) = Z.of_nat n -> py_int (IZR fs * tf) = Z.of_nat mn ->
  (forall i, length (if pk then pink (randn i n) else randn i n) = L) -> (1 <= mn <= L)%nat ->
  exists s, pulsed_noise randn pink tn tp fs reps tf pk false = Ok (Some s) /\
    length s = (reps * (L + n))%nat /\
    forall i, (i < reps)%nat ->
      (forall j, (L <= j < L + n)%nat -> nth (i * (L + n) + j) s 0 = 0) /\
      (forall j, (j < L)%nat -> exists g, 0 <= g <= 1 /\
         nth (i * (L + n) + j) s 0 = g * nth j (if pk then pink (randn i n) else randn i n) 0 /\
         ((mn <= j)%nat -> (j < L - mn)%nat -> g = 1) /\
         (j = 0%nat -> g = 0) /\ ((2 <= mn)%nat -> j = (L - 1)%nat -> g = 0)).
Proof. exact pulsed_noise_final. Qed.
Print Assumptions C31_pulse_train.
Theorem C31_normalized_peak : forall randn pink tn tp fs reps tf pk s, (0 < reps)%nat ->
  pulsed_noise randn pink tn tp fs reps tf pk false = Ok (Some s) -> (exists x, In x s /\ x <> 0) ->
  exists s' c, pulsed_noise randn pink tn tp fs reps tf pk true = Ok (Some s') /\ 0 < c /\
    s' = map (Rmult c) s /\ (forall x, In x s' -> Rabs x <= 1) /\ exists x, In x s' /\ Rabs x = 1.
Proof. exact pulsed_noise_normalized. Qed.
Print Assumptions C31_normalized_peak.
Theorem C31_pause_duration_refuted : exists randn pink tn tp fs tf s,
  (forall i n, length (randn i n) = n) /\ py_int (IZR fs * tn) = 4%Z /\ py_int (IZR fs * tp) = 8%Z /\
  pulsed_noise randn pink tn tp fs 1 tf false false = Ok (Some s) /\ length s <> (4 + 8)%nat.
Proof. exact pause_refuted. Qed.
Print Assumptions C31_pause_duration_refuted.
Example C31_nonvacuous : py_int (IZR 4 * 1) = Z.of_nat 4 /\ py_int (IZR 4 * (1 / 2)) = Z.of_nat 2 /\
  (forall i : nat, length (repeat 1 4) = 4%nat) /\ (1 <= 2 <= 4)%nat.
Proof. destruct py_int_quarter as (A & B & _). repeat split; auto; lia. Qed.

(** ** C32: [r1] resamples one row; the 2-D call handles rows independently *)
Theorem C32_jobs_equivalent : forall (r1 : list R -> res (list R)) hl hr taps fh ft jobs cs ol or_,
  (1 < jobs)%Z -> (0 < cs)%nat -> full_order (length hl) cs ol -> full_order (length hr) cs or_ ->
  match resample_hrirs r1 (mapM r1) hl hr taps fh ft 1 cs [] [] with
  | Ok v => resample_hrirs r1 (mapM r1) hl hr taps fh ft jobs cs ol or_ = Ok v
  | Err _ => exists e, resample_hrirs r1 (mapM r1) hl hr taps fh ft jobs cs ol or_ = Err e
  end.
Proof. exact resample_jobs. Qed.
Print Assumptions C32_jobs_equivalent.
Theorem C32_no_jobs_gives_zeros : forall r1 r2 hl hr taps fh ft jobs cs ol or_, (jobs <= 0)%Z ->
  let z := map (map Some) (zeros2 (length hl) (Z.to_nat (py_int (IZR taps * IZR ft / IZR fh)))) in
  resample_hrirs r1 r2 hl hr taps fh ft jobs cs ol or_ = Ok (z, z, ft).
Proof. exact resample_no_jobs. Qed.
Print Assumptions C32_no_jobs_gives_zeros.
Theorem C32_zero_jobs_refuted : exists (r1 : list R -> res (list R)) hl hr,
  resample_hrirs r1 (mapM r1) hl hr 1 1 1 0 1 [] [] <> resample_hrirs r1 (mapM r1) hl hr 1 1 1 1 1 [] [].
Proof. exact zero_jobs_refuted. Qed.
Print Assumptions C32_zero_jobs_refuted.
Example C32_nonvacuous : full_order 5 2 [1; 2; 0]%nat.
Proof. exact order_example. Qed.

(** ** C66 *)
Theorem C66_itd_of_pure_delay : forall n p q gl gr x l r fs,
  pulse_at n p gl x l -> pulse_at n q gr x r -> gl <> 0 -> gr <> 0 ->
  (exists y, In y x /\ y <> 0) ->
  (Z.abs (Z.of_nat q - Z.of_nat p) < Z.of_nat (n / 2))%Z ->
  itd1 l r fs = Ok ((INR q - INR p) / fs).
Proof. exact itd_final. Qed.
Print Assumptions C66_itd_of_pure_delay.
Example C66_nonvacuous : pulse_at 8 1 2 [1; 3] [0; 2; 6; 0; 0; 0; 0; 0] /\
  pulse_at 8 3 (-1) [1; 3] [0; 0; 0; -1; -3; 0; 0; 0] /\
  (Z.abs (Z.of_nat 3 - Z.of_nat 1) < Z.of_nat (8 / 2))%Z.
Proof. destruct pulse_example. repeat split; try apply H; try apply H0; cbn; lia. Qed.
