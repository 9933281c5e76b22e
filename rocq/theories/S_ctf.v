(** Specification of the common transfer function equaliser of a set of HRIRs. *)
From Verif Require Import Base M_utils M_sig M_sph M_grids S_process S_decoder3 S_magls.
Open Scope R_scope.

(** ** averaging and smoothing *)
(** energy of the responses [x] in bin [k] of [n], summed with the weights [w] *)
Definition energy (w : list R) (x : list (list R)) (n k : nat) : R :=
  rsum (length w) (fun g => nth g w 0 * modulus (dft n (nth g x []) k) ^ 2).
Definition level (w : list R) (x : list (list R)) (n k : nat) : R := 1 / 2 * sqrt (energy w x n k) / (4 * PI).
(** value [j] of a Hamming window of length [M], or of a rectangle *)
Definition window_value (weighted : bool) (M j : nat) : R :=
  if negb weighted || Nat.eqb M 1 then 1 else 54 / 100 - 46 / 100 * cos (2 * PI * INR j / (INR M - 1)).
(** [v] is the windowed mean of the [N] values [a] over 1/n octave around [idx] *)
Definition octave_mean (weighted : bool) (n : R) (N : nat) (a : nat -> R) (idx : nat) (v : R) : Prop :=
  exists lo M, (1 <= M)%nat /\ (lo + M <= N)%nat /\
    (forall j, (j < N)%nat -> (in_window (half_step n) idx j <-> (lo <= j < lo + M)%nat)) /\
    v = rsum M (fun j => window_value weighted M j * a (lo + j)%nat) / rsum M (window_value weighted M).
(** [s k], k < bins: the mean of the smoothed levels of the two ears *)
Definition common_level (w : list R) (xl xr : list (list R)) (n : nat) (s : nat -> R) : Prop :=
  forall k, (k <= n / 2)%nat -> exists a b,
    octave_mean true 1 (n / 2 + 1) (level w xl n) k a /\ octave_mean true 1 (n / 2 + 1) (level w xr n) k b /\ s k = (a + b) / 2.

(** ** inversion *)
(** weight of the inversion: 1 in the bins lo ... hi-1, Hann slopes on both sides *)
Definition inversion_weight (lo hi bins k : nat) : R :=
  if Nat.leb hi k then (1 + cos (PI * INR (k - hi + 1) / INR (bins - hi))) / 2
  else if Nat.ltb k lo then (1 - cos (PI * INR k / INR lo)) / 2 else 1.
(** mean of [s] over the bins i-5 ... i+4, as far as they exist *)
Definition reference_level (bins i : nat) (s : nat -> R) : R :=
  let m := (Nat.min (i + 5) bins - (i - 5))%nat in rsum m (fun j => s (i - 5 + j)%nat) / INR m.
(** the correction of bin [k] *)
Definition correction (lo hi bins i : nat) (s : nat -> R) (k : nat) : R :=
  let f := inversion_weight lo hi bins k in f * (reference_level bins i s / s k) + (1 - f).
Definition hann (M t : nat) : R := if Nat.eqb M 1 then 1 else (1 - cos (2 * PI * INR t / (INR M - 1))) / 2.
(** [e] is the filter with the bins [H], delayed by taps/2 + 1, cut and windowed *)
Definition linear_eq (taps : nat) (H : nat -> R) (e : list R) : Prop :=
  length e = taps /\ forall t, (t < taps)%nat ->
    nth t e 0 = synth (8 * taps) (fun k => (H k, 0)) ((t + (16 * taps - (taps / 2 + 1))) mod (16 * taps)) * hann taps t.
(** [e] is the beginning of the minimum phase filter of the symmetric filter with
    the bins H^2 *)
Definition minimum_eq (minph : list R -> list R) (taps : nat) (H : nat -> R) (e : list R) : Prop :=
  exists x, length x = (16 * taps)%nat /\
    (forall t, (t < 16 * taps)%nat -> nth t x 0 = synth (8 * taps) (fun k => (H k ^ 2, 0)) ((t + 8 * taps) mod (16 * taps))) /\
    e = firstn taps (minph x).

(** a set of [h_taps] long responses, with weights, and the bins of the frequencies *)
Definition ctf_setup (hr : hrirs) (w : list R) (lims : R * R) (lo hi i : nat) : Prop :=
  h_fs hr <> 0%Z /\ (0 < h_taps hr)%nat /\ length w = num_grid_points hr /\
  length (h_left hr) = num_grid_points hr /\ length (h_right hr) = num_grid_points hr /\
  nearest_bin (16 * h_taps hr) (IZR (h_fs hr)) (fst lims) lo /\ nearest_bin (16 * h_taps hr) (IZR (h_fs hr)) (snd lims) hi /\
  nearest_bin (16 * h_taps hr) (IZR (h_fs hr)) 1000 i.
(** the weights used: those given, or those of [calculate_grid_weights] at order 5 *)
Definition weights_used (pinv : mat -> mat) (cond : mat -> R) (hr : hrirs) (given : option (list R)) (w : list R) : Prop :=
  given = Some w \/ given = None /\ calculate_grid_weights pinv cond (h_azi hr) (h_zen hr) (Some 5%Z) = Ok w.
(** no bin without energy, none with negative energy *)
Definition audible (w : list R) (xl xr : list (list R)) (n : nat) : Prop :=
  forall k, (k <= n / 2)%nat -> 0 <= energy w xl n k /\ 0 <= energy w xr n k /\ 0 < energy w xl n k + energy w xr n k.
(** the same set, louder *)
Definition scaled (c : R) (hr : hrirs) : hrirs :=
  Hrirs (map (map (Rmult c)) (h_left hr)) (map (map (Rmult c)) (h_right hr)) (h_azi hr) (h_zen hr) (h_fs hr) (num_grid_points hr) (h_taps hr).
(** every response of [x] is one pulse within [taps] samples, direction [g] with amplitude [a g] *)
Definition all_pulses (x : list (list R)) (taps : nat) (a : nat -> R) : Prop :=
  forall g, (g < length x)%nat -> exists d, (d < taps)%nat /\ forall t, nth t (nth g x []) 0 = if Nat.eqb t d then a g else 0.

(** ** filtering *)
Definition cproduct (a b : C2) : C2 := (fst a * fst b - snd a * snd b, fst a * snd b + snd a * fst b).
(** [y] are the [len] samples of the convolution of [x] with [e] from sample [start] on *)
Definition cut_convolution (x e : list R) (start len : nat) (y : list R) : Prop :=
  length y = len /\ forall t, (t < len)%nat -> nth t y 0 = conv_sum x e (t + start).
(** all responses of [hr'] are such cuts of those of [hr]; nothing else has changed *)
Definition equalised (hr hr' : hrirs) (e : list R) (start len : nat) : Prop :=
  h_azi hr' = h_azi hr /\ h_zen hr' = h_zen hr /\ h_fs hr' = h_fs hr /\ num_grid_points hr' = num_grid_points hr /\ h_taps hr' = len /\
  Forall2 (fun x y => cut_convolution x e start len y) (h_left hr) (h_left hr') /\
  Forall2 (fun x y => cut_convolution x e start len y) (h_right hr) (h_right hr').
(** a set with at least one response, all of them [h_taps] > 0 long *)
Definition rectangular (hr : hrirs) : Prop :=
  (0 < length (h_left hr))%nat /\ length (h_right hr) = length (h_left hr) /\ (0 < h_taps hr)%nat /\
  Forall (fun x => length x = h_taps hr) (h_left hr) /\ Forall (fun x => length x = h_taps hr) (h_right hr).
(** ** spectra *)
(** [X] is the one-sided spectrum of the real signal [x] *)
Definition spectrum_of (x : list R) (X : list C2) : Prop :=
  length X = (length x / 2 + 1)%nat /\ forall k, (k <= length x / 2)%nat -> nth k X (0, 0) = dft (length x) x k.
(** the imaginary parts of the first and the last bin removed *)
Definition real_ends (X : list C2) (k : nat) : C2 :=
  (fst (nth k X (0, 0)), if Nat.eqb k 0 || Nat.eqb k (length X - 1) then 0 else snd (nth k X (0, 0))).
