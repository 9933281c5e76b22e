(** Properties of process.py, part 2, and sig.py: resample_spectrum, hrirs_ctf,
    HRIRs.apply_ctf_eq (C85 - C87); exact weights of frac_octave_smoothing (C28). *)
From Coq Require Import Lra Lia.
From Verif Require Import Base M_utils M_sig M_process M_sph M_grids M_decoder4 M_process2 S_process S_decoder3 S_magls S_ctf P_ctf1 P_ctf3 P_ctf4 P_ctf5 P_ctf6 X_magls X_ctf.
Open Scope R_scope.


(** ** C28 *)

Theorem C28_exact_weights : forall (a : list R) n wt,
  0 < n ->
  exists out, frac_octave_smoothing (arr1 a) n wt = Ok (map Some out) /\ length out = length a /\
    forall idx, (idx < length a)%nat -> octave_mean wt n (length a) (fun k => nth k a 0) idx (nth idx out 0).
Proof. exact octave_ok. Qed.
Print Assumptions C28_exact_weights.

(** ** C85 *)

Theorem C85_result : forall pinv cond minph hr (mp : bool) lims gw w lo hi i,
  weights_used pinv cond hr gw w -> ctf_setup hr w lims lo hi i ->
  audible w (h_left hr) (h_right hr) (16 * h_taps hr) -> (5 <= i)%nat ->
  exists s e, hrirs_ctf pinv cond minph hr mp lims gw = Ok (Some e) /\ common_level w (h_left hr) (h_right hr) (16 * h_taps hr) s /\
    (forall k, (k <= 8 * h_taps hr)%nat -> 0 < s k) /\
    if mp then minimum_eq minph (h_taps hr) (correction lo hi (8 * h_taps hr + 1) i s) e else linear_eq (h_taps hr) (correction lo hi (8 * h_taps hr + 1) i s) e.
Proof. exact ctf_main. Qed.
Print Assumptions C85_result.
Theorem C85_correction : forall lo hi bins i s,
  (hi < bins)%nat -> (5 <= i < bins)%nat -> (forall k, (k < bins)%nat -> 0 < s k) ->
  (forall k, (lo <= k < hi)%nat -> correction lo hi bins i s k * s k = reference_level bins i s) /\
  ((0 < lo)%nat -> (0 < hi)%nat -> correction lo hi bins i s 0 = 1) /\ correction lo hi bins i s (bins - 1) = 1 /\
  (forall k, (k < bins)%nat -> 0 < correction lo hi bins i s k /\
     Rmin 1 (reference_level bins i s / s k) <= correction lo hi bins i s k <= Rmax 1 (reference_level bins i s / s k)).
Proof. exact f_correction. Qed.
Print Assumptions C85_correction.
Theorem C85_flat : forall pinv cond minph hr (mp : bool) lims gw w lo hi i al ar,
  weights_used pinv cond hr gw w -> ctf_setup hr w lims lo hi i -> (5 <= i)%nat ->
  all_pulses (h_left hr) (h_taps hr) al -> all_pulses (h_right hr) (h_taps hr) ar ->
  let el := rsum (length w) (fun g => nth g w 0 * al g ^ 2) in let er := rsum (length w) (fun g => nth g w 0 * ar g ^ 2) in
  0 <= el -> 0 <= er -> 0 < el + er ->
  exists e, hrirs_ctf pinv cond minph hr mp lims gw = Ok (Some e) /\
    if mp then exists x, length x = (16 * h_taps hr)%nat /\ (forall t, (t < 16 * h_taps hr)%nat -> nth t x 0 = if Nat.eqb t (8 * h_taps hr) then 1 else 0) /\ e = firstn (h_taps hr) (minph x)
    else length e = h_taps hr /\ forall t, (t < h_taps hr)%nat -> nth t e 0 = if Nat.eqb t (h_taps hr / 2 + 1) then hann (h_taps hr) t else 0.
Proof. exact ctf_flat. Qed.
Print Assumptions C85_flat.
Theorem C85_scaled : forall pinv cond minph hr mp lims gw c,
  c <> 0 -> hrirs_ctf pinv cond minph (scaled c hr) mp lims gw = hrirs_ctf pinv cond minph hr mp lims gw.
Proof. exact ctf_scaled. Qed.
Print Assumptions C85_scaled.
Theorem C85_weights_scaled : forall pinv cond minph hr mp lims w c,
  0 < c -> hrirs_ctf pinv cond minph hr mp lims (Some (map (Rmult c) w)) = hrirs_ctf pinv cond minph hr mp lims (Some w).
Proof. exact ctf_weights_scaled. Qed.
Print Assumptions C85_weights_scaled.
Theorem C85_ears : forall pinv cond minph l r azi zen fs g t mp lims gw,
  hrirs_ctf pinv cond minph (Hrirs l r azi zen fs g t) mp lims gw = hrirs_ctf pinv cond minph (Hrirs r l azi zen fs g t) mp lims gw.
Proof. exact ctf_ears. Qed.
Print Assumptions C85_ears.
Theorem C85_wrong_weights : forall pinv cond minph hr mp lims gw w,
  weights_used pinv cond hr gw w -> length w <> num_grid_points hr ->
  hrirs_ctf pinv cond minph hr mp lims gw = Err AssertionError.
Proof. exact ctf_wrong_weights. Qed.
Print Assumptions C85_wrong_weights.
Theorem C85_no_rate : forall pinv cond minph hr mp lims gw w,
  weights_used pinv cond hr gw w -> length w = num_grid_points hr -> (0 < h_taps hr)%nat -> h_fs hr = 0%Z ->
  hrirs_ctf pinv cond minph hr mp lims gw = Err ZeroDivisionError.
Proof. exact ctf_no_rate. Qed.
Print Assumptions C85_no_rate.
Theorem C85_negative_energy : forall pinv cond minph hr mp lims gw w lo hi i k,
  weights_used pinv cond hr gw w -> ctf_setup hr w lims lo hi i -> (k <= 8 * h_taps hr)%nat ->
  energy w (h_left hr) (16 * h_taps hr) k < 0 \/ energy w (h_right hr) (16 * h_taps hr) k < 0 -> hrirs_ctf pinv cond minph hr mp lims gw = Ok None.
Proof. exact ctf_negative. Qed.
Print Assumptions C85_negative_energy.
Theorem C85_silent : forall pinv cond minph hr mp lims gw w lo hi i,
  weights_used pinv cond hr gw w -> ctf_setup hr w lims lo hi i ->
  (forall k, (k <= 8 * h_taps hr)%nat -> energy w (h_left hr) (16 * h_taps hr) k = 0 /\ energy w (h_right hr) (16 * h_taps hr) k = 0) -> hrirs_ctf pinv cond minph hr mp lims gw = Ok None.
Proof. exact ctf_silent. Qed.
Print Assumptions C85_silent.
Theorem C85_short_not_finite : forall pinv cond minph hr mp lims gw w lo hi i,
  weights_used pinv cond hr gw w -> ctf_setup hr w lims lo hi i -> (i < 5)%nat -> (2 <= h_taps hr)%nat ->
  hrirs_ctf pinv cond minph hr mp lims gw = Ok None.
Proof. exact ctf_low. Qed.
Print Assumptions C85_short_not_finite.
Theorem C85_all_zero_refuted : exists hr w lo hi i, ctf_setup hr w (125, 10000) lo hi i /\ (5 <= i)%nat /\ audible w (h_left hr) (h_right hr) (16 * h_taps hr) /\
  forall pinv cond minph, hrirs_ctf pinv cond minph hr false (125, 10000) (Some w) = Ok (Some (repeat 0 (h_taps hr))).
Proof. exact f_all_zero. Qed.
Print Assumptions C85_all_zero_refuted.
Example C85_nonvacuous : let hr := two_pulses 128 48000 in ctf_setup hr [2 * PI; 2 * PI] (125, 10000) 5 427 43 /\
  audible [2 * PI; 2 * PI] (h_left hr) (h_right hr) (16 * h_taps hr) /\
  exists e, hrirs_ctf (fun A => A) (fun _ => 1) (fun x => x) hr false (125, 10000) (Some [2 * PI; 2 * PI]) = Ok (Some e) /\ length e = 128%nat /\
    forall t, (t < 128)%nat -> nth t e 0 = if Nat.eqb t 65 then hann 128 65 else 0.
Proof. exact ex_flat. Qed.
Example C85_short_nonvacuous : exists hr w lo hi i, ctf_setup hr w (125, 10000) lo hi i /\ (i < 5)%nat /\ (2 <= h_taps hr)%nat /\ audible w (h_left hr) (h_right hr) (16 * h_taps hr).
Proof. exact ex_low. Qed.

(** ** C86 *)

Theorem C86_full : forall pinv cond minph hr e,
  rectangular hr -> (0 < length e)%nat ->
  exists hr', apply_ctf_eq pinv cond minph hr (Some e) Full = Ok (Some hr') /\ equalised hr hr' e 0 (h_taps hr + length e - 1).
Proof. exact f_full. Qed.
Print Assumptions C86_full.
Theorem C86_same : forall pinv cond minph hr e,
  rectangular hr -> (0 < length e)%nat ->
  exists hr', apply_ctf_eq pinv cond minph hr (Some e) Same = Ok (Some hr') /\ equalised hr hr' e ((length e - 1) / 2) (h_taps hr).
Proof. exact f_same. Qed.
Print Assumptions C86_same.
Theorem C86_valid : forall pinv cond minph hr e,
  rectangular hr -> (0 < length e)%nat ->
  ((length e <= h_taps hr)%nat -> exists hr', apply_ctf_eq pinv cond minph hr (Some e) Valid = Ok (Some hr') /\ equalised hr hr' e (length e - 1) (h_taps hr - length e + 1)) /\
  ((h_taps hr < length e)%nat -> length (h_left hr) = 1%nat -> exists hr', apply_ctf_eq pinv cond minph hr (Some e) Valid = Ok (Some hr') /\ equalised hr hr' e (h_taps hr - 1) (length e - h_taps hr + 1)) /\
  ((h_taps hr < length e)%nat -> (1 < length (h_left hr))%nat -> apply_ctf_eq pinv cond minph hr (Some e) Valid = Err ValueError).
Proof. exact f_valid. Qed.
Print Assumptions C86_valid.
Theorem C86_rejected : forall pinv cond minph hr e mode,
  (rectangular hr -> (0 < length e)%nat -> apply_ctf_eq pinv cond minph hr (Some e) OtherMode = Err ValueError) /\
  apply_ctf_eq pinv cond minph hr (Some []) mode = Err IndexError.
Proof. exact f_rejected. Qed.
Print Assumptions C86_rejected.
Theorem C86_default : forall pinv cond minph hr mode,
  apply_ctf_eq pinv cond minph hr None mode =
  match hrirs_ctf pinv cond minph hr true (125, 10000) None with
  | Ok (Some e) => apply_ctf_eq pinv cond minph hr (Some e) mode
  | Ok None => Ok None
  | Err x => Err x
  end.
Proof. exact apply_default. Qed.
Print Assumptions C86_default.
Theorem C86_spectrum : forall pinv cond minph hr e hr' n k,
  rectangular hr -> (0 < length e)%nat -> (h_taps hr + length e - 1 <= n)%nat -> apply_ctf_eq pinv cond minph hr (Some e) Full = Ok (Some hr') ->
  Forall2 (fun x y => dft n y k = cproduct (dft n x k) (dft n e k)) (h_left hr) (h_left hr') /\ Forall2 (fun x y => dft n y k = cproduct (dft n x k) (dft n e k)) (h_right hr) (h_right hr').
Proof. exact f_spectrum. Qed.
Print Assumptions C86_spectrum.
Theorem C86_pulse : forall pinv cond minph hr e w,
  rectangular hr -> (0 < length e)%nat -> (forall j, (j < length e)%nat -> nth j e 0 = if Nat.eqb j ((length e - 1) / 2) then w else 0) ->
  apply_ctf_eq pinv cond minph hr (Some e) Same = Ok (Some (scaled w hr)).
Proof. exact f_pulse. Qed.
Print Assumptions C86_pulse.
Example C86_nonvacuous : let hr := Hrirs [[1; 2]; [0; 1]] [[2; 0]; [1; -1]] [0; PI] [PI / 2; PI / 2] 48000 2 2 in rectangular hr /\
  apply_ctf_eq (fun A => A) (fun _ => 1) (fun x => x) hr (Some [3; 4; 5]) Full = Ok (Some (Hrirs [[3; 10; 13; 10]; [0; 3; 4; 5]] [[6; 8; 10; 0]; [3; 1; 1; -5]] [0; PI] [PI / 2; PI / 2] 48000 2 4)).
Proof. exact ex_apply. Qed.

(** ** C87 *)

Theorem C87_even_length : forall resampler x X y fs ft,
  Nat.even (length x) = true -> (0 < length x)%nat -> spectrum_of x X -> resampler fs ft x = Ok y -> (0 < length y)%nat ->
  exists Y, resample_spectrum resampler X fs ft = Ok Y /\ spectrum_of y Y.
Proof. exact resample_even. Qed.
Print Assumptions C87_even_length.
Theorem C87_error : forall resampler x X fs ft e,
  Nat.even (length x) = true -> (0 < length x)%nat -> spectrum_of x X -> resampler fs ft x = Err e -> resample_spectrum resampler X fs ft = Err e.
Proof. exact resample_error. Qed.
Print Assumptions C87_error.
Theorem C87_equal_rates : forall resampler (X : list C2) fs,
  (2 <= length X)%nat -> (forall x, resampler fs fs x = Ok x) ->
  exists Y, resample_spectrum resampler X fs fs = Ok Y /\ length Y = length X /\ forall k, (k < length X)%nat -> nth k Y (0, 0) = real_ends X k.
Proof. exact resample_same. Qed.
Print Assumptions C87_equal_rates.
Theorem C87_too_short : forall resampler (X : list C2) fs ft,
  (length X <= 1)%nat -> resample_spectrum resampler X fs ft = Err ValueError.
Proof. exact resample_short. Qed.
Print Assumptions C87_too_short.
Theorem C87_odd_length_refuted : exists (resampler : Z -> Z -> list R -> res (list R)) x X Y, (forall fs x, resampler fs fs x = Ok x) /\ length x = 3%nat /\ spectrum_of x X /\
  resample_spectrum resampler X 48000 48000 = Ok Y /\ length Y = length X /\ nth 1 Y (0, 0) <> nth 1 X (0, 0).
Proof. exact f_odd. Qed.
Print Assumptions C87_odd_length_refuted.
Example C87_nonvacuous : spectrum_of [1; 2] (rfft_n [1; 2] 2) /\ Nat.even (@length R [1; 2]) = true /\ (1 < @length C2 (rfft_n [1; 2]%R 2))%nat.
Proof. exact ex_resample. Qed.
