(** Model of /repo/spaudiopy/process.py lines 99-194 (resample_spectrum, hrirs_ctf)
    and sig.py lines 353-373 (HRIRs.apply_ctf_eq).  scipy.signal.minimum_phase,
    resampy.resample, np.linalg.pinv and np.linalg.cond are parameters. *)
From Verif Require Import Base M_utils M_sig M_process M_sph M_grids M_parsa2 M_parsa3 M_decoder4.
Open Scope R_scope.

(** process.py:99-121 resample_spectrum of one spectrum (atleast_2d and squeeze
    only add and remove axes of length 1).  np.fft rejects transforms of length 0 *)
Definition resample_spectrum (resampler : Z -> Z -> list R -> res (list R)) (spec : list C2) (fs_current fs_target : Z) : res (list C2) :=
  if Nat.leb (length spec) 1 then Err ValueError else
  let* r := resampler fs_current fs_target (irfft spec) in
  if Nat.eqb (length r) 0 then Err ValueError else Ok (rfft_n r (length r)).

(** process.py:156-159, one ear: 0.5 sqrt(sum_g w_g |H_g(k)|^2) / (4 pi).
    [None]: NaN in some bin, which makes all taps NaN *)
Fixpoint all_some {A : Type} (l : list (option A)) : option (list A) :=
  match l with
  | [] => Some []
  | None :: _ => None
  | Some x :: t => option_map (cons x) (all_some t)
  end.
Definition ctf_avg_at (w : list R) (H : list (list C2)) (k : nat) : option R :=
  let s := lsum (map (fun q => fst q * cabs (nth k (snd q) (0, 0)) ^ 2) (combine w H)) in
  if Rltb s 0 then None else Some (1 / 2 * sqrt s / (4 * PI)).
Definition ctf_avg (w : list R) (H : list (list C2)) (bins : nat) : option (list R) :=
  all_some (map (ctf_avg_at w H) (seq 0 bins)).
(** np.fft.rfftfreq(n, 1 / fs) *)
Definition rfftfreq (n : nat) (fs : R) : list R := map (fun k => INR k / (INR n * (1 / fs))) (seq 0 (n / 2 + 1)).
Definition nearest (freqs : list R) (f : R) : res nat := argmin (map (fun x => Rabs (x - f)) freqs).
(** process.py:169-175 *)
Definition ctf_weights (freqs : list R) (lims : R * R) : res (list R) :=
  let len := length freqs in
  let* lo := nearest freqs (fst lims) in
  let* hi := nearest freqs (snd lims) in
  let w_lo := slice_to (np_hanning (2 * Z.of_nat lo + 1)) (Z.of_nat lo) in
  let w_hi := slice_from (np_hanning (2 * Z.of_nat (len - hi) + 1)) (Z.of_nat (len - hi) + 1) in
  let* w := slice_set (repeat 1 len) 0 (Z.of_nat lo) w_lo in
  slice_set w (Z.of_nat hi) (Z.of_nat len) w_hi.
(** process.py:178-181: the smoothed average [s], its mean around 1 kHz, the
    weighted inverse.  [None]: not finite (empty mean or division by zero) *)
Definition ctf_inverse (fw s : list R) (i1k : nat) : option (list R) :=
  let win := slice s (Z.of_nat i1k - 5) (Z.of_nat i1k + 5) in
  let m := np_mean (map Rabs win) in
  if Nat.eqb (length win) 0 then None
  else if Reqb m 0 then None
  else if existsb (fun x => Reqb x 0) s then None
  else Some (map (fun q => fst q * (1 / (snd q / m)) + (1 - fst q) * 1) (combine fw s)).
(** process.py:184-191 *)
Definition ctf_taps (minph : list R -> list R) (min_phase : bool) (taps : nat) (inv : list R) : list R :=
  if min_phase
  then let h := irfft (map (fun x => (x ^ 2, 0)) inv) in
       slice_to (minph (np_roll h (length h / 2))) (Z.of_nat taps)
  else zip_mul (slice_to (np_roll (irfft (map (fun x => (x, 0)) inv)) (taps / 2 + 1)) (Z.of_nat taps)) (np_hanning (Z.of_nat taps)).
(** process.py:124-194 hrirs_ctf; [Ok None]: the taps are not finite *)
Definition hrirs_ctf (pinv : mat -> mat) (cond : mat -> R) (minph : list R -> list R)
    (hr : hrirs) (min_phase : bool) (lims : R * R) (grid_weights : option (list R)) : res (option (list R)) :=
  let* w := match grid_weights with
            | Some w => Ok w
            | None => calculate_grid_weights pinv cond (h_azi hr) (h_zen hr) (Some 5%Z)
            end in
  let taps := h_taps hr in
  let* _ := assert_ (Nat.eqb (length w) (num_grid_points hr)) in
  let n := (16 * taps)%nat in
  if Nat.eqb n 0 then Err ValueError else
  let bins := (n / 2 + 1)%nat in
  let avg_l := ctf_avg w (map (fun x => rfft_n x n) (h_left hr)) bins in
  let avg_r := ctf_avg w (map (fun x => rfft_n x n) (h_right hr)) bins in
  if Z.eqb (h_fs hr) 0 then Err ZeroDivisionError else
  let freqs := rfftfreq n (IZR (h_fs hr)) in
  let* fw := ctf_weights freqs lims in
  let* i1k := nearest freqs 1000 in
  match avg_l, avg_r with
  | Some al, Some ar =>
      let* sl := frac_octave_smoothing (arr1 al) 1 true in
      let* sr := frac_octave_smoothing (arr1 ar) 1 true in
      match all_some sl, all_some sr with
      | Some sl, Some sr =>
          let s := map (fun q => 1 / 2 * fst q + 1 / 2 * snd q) (combine sl sr) in
          Ok (option_map (ctf_taps minph min_phase taps) (ctf_inverse fw s i1k))
      | _, _ => Ok None
      end
  | _, _ => Ok None
  end.

(** scipy.signal.convolve(x, eq[None, :], mode) of a 2-D array; an empty operand
    gives an empty 1-D array, whose shape[1] raises IndexError at line 373 *)
Inductive cmode : Set := Full | Same | Valid | OtherMode.
Definition convolve_valid (a h : list R) : list R :=
  firstn (Nat.max (length a) (length h) - Nat.min (length a) (length h) + 1) (skipn (Nat.min (length a) (length h) - 1) (convolve a h)).
Definition conv_rows (x : list (list R)) (taps : nat) (eq : list R) (mode : cmode) : res (list (list R)) :=
  if Nat.eqb (length x * taps) 0 || Nat.eqb (length eq) 0 then Err IndexError else
  match mode with
  | Full => Ok (map (fun r => convolve r eq) x)
  | Same => Ok (map (fun r => convolve_same r eq) x)
  | Valid => if Nat.leb (length eq) taps || (Nat.leb (length x) 1 && Nat.leb taps (length eq))
             then Ok (map (fun r => convolve_valid r eq) x) else Err ValueError
  | OtherMode => Err ValueError
  end.
(** sig.py:353-373 apply_ctf_eq.  Both ears have [h_taps] samples.  [Ok None]: the
    responses are not finite *)
Definition apply_ctf_eq (pinv : mat -> mat) (cond : mat -> R) (minph : list R -> list R)
    (hr : hrirs) (eq_taps : option (list R)) (mode : cmode) : res (option hrirs) :=
  let* eq := match eq_taps with
             | Some e => Ok (Some e)
             | None => hrirs_ctf pinv cond minph hr true (125, 10000) None
             end in
  match eq with
  | None => Ok None
  | Some eq =>
      let* l := conv_rows (h_left hr) (h_taps hr) eq mode in
      let* r := conv_rows (h_right hr) (h_taps hr) eq mode in
      Ok (Some (Hrirs l r (h_azi hr) (h_zen hr) (h_fs hr) (num_grid_points hr) (length (nth 0 l []))))
  end.
