(** Model of /repo/spaudiopy/process.py.
    resample_spectrum, hrirs_ctf and apply_ctf_eq are in M_process2.v.
    ambeo_a2b and the band-pass filters of the ILD/ITD estimators are in
    M_process3.v and M_process4.v. *)
From Verif Require Import Base M_utils M_sig.
Open Scope R_scope.

(** ** numpy helpers *)
(** np.max of a list: ValueError if empty *)
Definition rmax_from (x : R) (l : list R) : R := fold_left Rmax l x.
Definition np_max (l : list R) : res R :=
  match l with [] => Err ValueError | x :: t => Ok (rmax_from x t) end.

(** np.floor, np.ceil; np.round (half to even) *)
Definition zfloor (x : R) : Z := Int_part x.
Definition zceil (x : R) : Z := (- zfloor (- x))%Z.
Definition np_round (x : R) : Z :=
  let f := zfloor x in
  let d := x - IZR f in
  if Rltb d (1 / 2) then f
  else if Rltb (1 / 2) d then (f + 1)%Z
  else if Z.even f then f else (f + 1)%Z.

(** [u * v] for 1-D arrays: equal lengths, or one of them of length one *)
Definition zip_mul (u v : list R) : list R := map (fun p => fst p * snd p) (combine u v).
Definition mul_arrays (u v : list R) : res (list R) :=
  if Nat.eqb (length u) (length v) then Ok (zip_mul u v)
  else match u, v with
       | [x], _ => Ok (map (Rmult x) v)
       | _, [y] => Ok (map (fun x => x * y) u)
       | _, _ => Err ValueError
       end.

(** [l[a:] = x] with a scalar [x] *)
Definition fill_from (l : list R) (a : Z) (x : R) : list R :=
  let a' := norm_idx (length l) a in
  firstn a' l ++ repeat x (length l - a').
(** [l[:b] = x] with a scalar [x] *)
Definition fill_to (l : list R) (b : Z) (x : R) : list R :=
  let b' := norm_idx (length l) b in repeat x b' ++ skipn b' l.

(** ** multiprocessing.Pool.starmap / Pool.map, as CPython implements it
    (multiprocessing/pool.py, _get_tasks and MapResult._set): the task list is cut
    into chunks, workers process whole chunks, and a finished chunk [i] writes its
    results to positions [i*chunksize .. (i+1)*chunksize).  Chunks finish in any
    order: [order] lists the chunk numbers as they arrive.  An exception in a chunk
    is raised in the caller. *)
Definition chunk {A : Type} (cs : nat) (l : list A) (i : nat) : list A :=
  firstn cs (skipn (i * cs) l).
Definition write_at {A : Type} (l : list A) (a : nat) (v : list A) : list A :=
  firstn a l ++ v ++ skipn (a + length v) l.
Fixpoint pool_arrive {A B : Type} (f : A -> res B) (cs : nat) (tasks : list A)
    (order : list nat) (value : list (option B)) : res (list (option B)) :=
  match order with
  | [] => Ok value
  | i :: t =>
      let* r := mapM f (chunk cs tasks i) in
      pool_arrive f cs tasks t (write_at value (i * cs) (map Some r))
  end.
Definition pool_starmap {A B : Type} (f : A -> res B) (cs : nat) (tasks : list A)
    (order : list nat) : res (list (option B)) :=
  pool_arrive f cs tasks order (repeat None (length tasks)).

(** ** process.py:25-73 resample_hrirs *)
Section ResampleHrirs.
(** resampy.resample on one row *)
Variable resample1 : list R -> res (list R).
(** resampy.resample(.., axis=1) on a 2-D array *)
Variable resample2 : list (list R) -> res (list (list R)).
Definition zeros2 (m n : nat) : list (list R) := repeat (repeat 0 n) m.

(** One list of rows per ear.  [order_l], [order_r], [cs]: order in which chunks
    finish, and the chunk size.  [jobs] <= 0 runs neither branch; the zeros
    allocated in line 56/58 are returned. *)
Definition resample_hrirs (hrir_l hrir_r : list (list R)) (taps fs_hrir fs_target jobs : Z)
    (cs : nat) (order_l order_r : list nat) :
    res (list (list (option R)) * list (list (option R)) * Z) :=
  let some := map (map Some) in
  let zl := some (zeros2 (length hrir_l)
                   (Z.to_nat (py_int (IZR taps * IZR fs_target / IZR fs_hrir)))) in
  if Z.eqb jobs 1 then
    let* l := resample2 hrir_l in
    let* r := resample2 hrir_r in
    Ok (some l, some r, fs_target)
  else if Z.ltb 1 jobs then
    let* l := pool_starmap resample1 cs hrir_l order_l in
    let* r := pool_starmap resample1 cs hrir_r order_r in
    let get := map (fun o => match o with Some v => map Some v | None => [] end) in
    Ok (get l, get r, fs_target)
  else Ok (zl, zl, fs_target).
End ResampleHrirs.

(** ** process.py:274-297 match_loudness, (n, c) arrays.  [None]: the result is
    NaN/inf because the input is silent (0 division, line 291). *)
Definition col_rms (a : mat) (j : nat) : R :=
  sqrt (rsum (nr a) (fun i => ent a i j ^ 2) / INR (nr a)).
Definition loudness (a : mat) : res R := np_max (map (col_rms a) (seq 0 (nc a))).
Definition peak_abs (a : mat) : res R :=
  np_max (flat_map (fun i => map (fun j => Rabs (ent a i j)) (seq 0 (nc a))) (seq 0 (nr a))).
Definition match_loudness (sig_in sig_target : mat) : res (option mat) :=
  if Nat.eqb (nr sig_in) 0 || Nat.eqb (nr sig_target) 0 then Ok None else
  let* L_in := loudness sig_in in
  let* L_target := loudness sig_target in
  if Reqb L_in 0 then Ok None else
  let out := Mat (nr sig_in) (nc sig_in) (fun i j => ent sig_in i j * L_target / L_in) in
  let* peak := peak_abs out in
  if Rltb 1 peak
  then Ok (Some (Mat (nr out) (nc out) (fun i j => ent out i j / peak)))
  else Ok (Some out).

(** ** process.py:344-366 lagrange_delay: the loop over k updates all taps but the
    k-th *)
Definition lagrange_step (delay : R) (h : list R) (k : nat) : list R :=
  map (fun p => if Nat.eqb (fst p) k then snd p
                else snd p * (delay - INR k) / (INR (fst p) - INR k))
      (combine (seq 0 (length h)) h).
Definition lagrange_delay (N : nat) (delay : R) : list R :=
  fold_left (lagrange_step delay) (seq 0 (N + 1)) (repeat 1 (N + 1)).

(** ** process.py:369-398 frac_octave_smoothing.  The input is taken as a float
    array (an integer array would make [zeros_like] truncate). *)
(** np.hamming(M) *)
Definition hamming (M : Z) : list R :=
  if Z.ltb M 1 then []
  else if Z.eqb M 1 then [1]
  else map (fun j => 54 / 100 + 46 / 100 * cos (PI * IZR (1 - M + 2 * Z.of_nat j) / IZR (M - 1)))
           (seq 0 (Z.to_nat M)).
Definition smooth_factor (smoothing_n : R) : R := Rpower 2 (1 / (2 * smoothing_n)).
Definition smooth_lo (c : R) (idx : nat) : Z := zfloor (INR idx / c).
Definition smooth_hi (c : R) (num idx : nat) : Z :=
  Z.min (Z.max (zceil (INR idx * c)) 1) (Z.of_nat num).
Definition smooth_win (weighted : bool) (M : Z) : list R :=
  if weighted then hamming M else repeat 1 (Z.to_nat M).
Definition smooth_at (a : list R) (c : R) (weighted : bool) (idx : nat) : res (option R) :=
  let k_lo := smooth_lo c idx in
  let k_hi := smooth_hi c (length a) idx in
  let win := smooth_win weighted (k_hi - k_lo) in
  let* m := mul_arrays win (slice a k_lo k_hi) in
  Ok (if Reqb (lsum win) 0 then None else Some (1 / lsum win * lsum m)).
Definition frac_octave_smoothing (a : nd R) (smoothing_n : R) (weighted : bool)
    : res (list (option R)) :=
  if Reqb smoothing_n 0 then Err ZeroDivisionError else
  let* a1 := asarray_1d a in
  mapM (smooth_at (data a1) (smooth_factor smoothing_n) weighted) (seq 0 (length (data a1))).

(** ** process.py:401-544 frac_octave_filterbank.  [n > 0], [N_out >= 2]. *)
(** lines 459-467: the centre frequencies; the while loop takes fuel *)
Fixpoint fo_centres (fuel : nat) (n : R) (f f_high : R) : res (list R) :=
  match fuel with
  | O => Err OutOfFuel
  | S k =>
      if Rltb (f * Rpower 2 (1 / (2 * n))) f_high
      then let* t := fo_centres k n (Rpower 2 (1 / n) * f) f_high in Ok (f :: t)
      else Ok [f]
  end.
(** lines 470-471 *)
Definition fo_lo (n fc : R) : R := fc / Rpower 2 (1 / (2 * n)).
Definition fo_hi (n fc : R) : R := fc * Rpower 2 (1 / (2 * n)).
(** lines 474-489: DFT line of the lower band edge and transition half width *)
Definition fo_k (N fs n fc : R) : Z :=
  zfloor (N * (2 * PI * fo_lo n fc) / (2 * PI * fs)).
Definition fo_P (N fs n overlap fc : R) : Z :=
  np_round (overlap * (N * (2 * PI * fc - 2 * PI * fo_lo n fc) / (2 * PI * fs))).
(** lines 493-500: p / P; 0/0 is NaN and replaced by 1 *)
Definition fo_phi0 (P : Z) : list R :=
  map (fun j => let p := (- P + Z.of_nat j)%Z in
                if Z.eqb P 0 then 1 else IZR p / IZR P)
      (seq 0 (Z.to_nat (2 * P + 1))).
(** lines 499-500: the recursion of order [slope_l] *)
Fixpoint fo_slope (l : nat) (x : R) : R :=
  match l with O => x | S k => fo_slope k (sin (PI / 2 * x)) end.
(** lines 503-505 *)
Definition fo_shift (x : R) : R := 1 / 2 * (x + 1).
Definition fo_a (l : nat) (P : Z) : list R :=
  map (fun x => sin (PI / 2 * fo_shift (fo_slope l x))) (fo_phi0 P).
Definition fo_b (l : nat) (P : Z) : list R :=
  map (fun x => cos (PI / 2 * fo_shift (fo_slope l x))) (fo_phi0 P).
(** lines 507-512 for one band: rows [i] and [i+1] *)
Definition fo_band (l : nat) (g : list (list R)) (i : nat) (kp : Z * Z) : res (list (list R)) :=
  let (k, P) := kp in
  let* r0 := slice_set (nth i g []) (k - P) (k + P + 1) (fo_b l P) in
  let r0 := fill_from r0 (k + P) 0 in
  let g := upd g i r0 in
  let* r1 := slice_set (nth (S i) g []) (k - P) (k + P + 1) (fo_a l P) in
  let r1 := fill_to r1 (k - P) 0 in
  Ok (upd g (S i) r1).
Fixpoint fo_bands (l : nat) (i : nat) (kps : list (Z * Z)) (g : list (list R)) : res (list (list R)) :=
  match kps with
  | [] => Ok g
  | kp :: t => let* g' := fo_band l g i kp in fo_bands l (S i) t g'
  end.
(** lines 524-531: band limits [f_lo, f_c, f_hi] *)
Definition fo_limits (n fs : R) (fcs : list R) : list (R * R * R) :=
  let rws := map (fun fc => (fo_lo n fc, fc, fo_hi n fc)) fcs in
  let i := (length rws - 1)%nat in
  let '(lo, _, _) := nth i rws (0, 0, 0) in
  let rws := upd rws i (lo, sqrt (lo * (fs / 2)), fs / 2) in
  let '(lo0, _, _) := nth 0 rws (0, 0, 0) in
  (0, sqrt (1 * lo0), lo0) :: rws.
Inductive fo_mode : Set := Energy | Amplitude | OtherMode.
Definition frac_octave_filterbank (fuel : nat) (n : R) (N_out : nat) (fs : Z) (f_low : R)
    (f_high : option R) (mode : fo_mode) (overlap : R) (slope_l : nat)
    : res (list (list R) * list (R * R * R)) :=
  let N := (IZR (Z.of_nat N_out) - 1) * 2 in
  let f_alias := IZR (fs / 2) in
  let fh := match f_high with None => f_alias | Some f => Rmin f f_alias end in
  let* _ := assert_ (Rleb overlap (1 / 2)) in
  let* fcs := fo_centres fuel n f_low fh in
  let kps := map (fun fc => (fo_k N (IZR fs) n fc, fo_P N (IZR fs) n overlap fc)) fcs in
  let g := repeat (repeat 1 N_out) (length fcs + 1) in
  let* g := fo_bands slope_l 0 kps g in
  let* g := match mode with
            | Energy => Ok g
            | Amplitude => Ok (map (map (fun x => x ^ 2)) g)
            | OtherMode => Err ValueError
            end in
  Ok (g, fo_limits n (IZR fs) fcs).

(** ** process.py:560-573 energy_decay.  [a = 0] (NaN/inf) gives None; an entry
    whose remaining energy is 0 is -inf dB: None. *)
Fixpoint trapz (l : list R) : R :=
  match l with
  | x :: ((y :: _) as t) => (x + y) / 2 + trapz t
  | _ => 0
  end.
(** np.cumsum(q[::-1])[::-1]: sums of the tails *)
Fixpoint tail_sums (q : list R) : list R :=
  match q with [] => [] | x :: t => lsum (x :: t) :: tail_sums t end.
Definition log10 (x : R) : R := ln x / ln 10.
Definition energy_decay (p : list R) : option (list (option R)) :=
  let q := map (fun x => x ^ 2) p in
  let a := trapz q in
  if Reqb a 0 then None
  else Some (map (fun b => if Reqb b 0 then None else Some (10 * log10 (b / a))) (tail_sums q)).

(** ** process.py:576-583 half_sided_Hann *)
(** scipy.signal.hann(M), symmetric, M > 1 *)
Definition hann_sym (M : Z) : list R :=
  map (fun j => 1 / 2 - 1 / 2 * cos (2 * PI * INR j / IZR (M - 1))) (seq 0 (Z.to_nat M)).
(** [l[a:] = v] *)
Definition set_from (l : list R) (a : Z) (v : list R) : res (list R) :=
  slice_set l a (Z.of_nat (length l)) v.
Definition half_sided_Hann (N : Z) : res (list R) :=
  let* _ := assert_ (Z.leb 3 N) in
  let w_full := hann_sym (2 * ((N + 1) / 2) + 1) in
  let w_taper := repeat 1 (Z.to_nat (N + 1)) in
  set_from w_taper (- ((N - 1) / 2)) (slice w_full (- ((N + 1) / 2)) (-1)).

(** ** process.py:586-618 gain_clipping.  The division makes a new array, so the
    caller's array is not changed. *)
Definition clip1 (t g : R) : R :=
  let x := g / t in
  (if Rltb 1 x then 1 + tanh (x - 1) else x) * t.
Definition gain_clipping (gain : list R) (t : R) : list R := map (clip1 t) gain.

(** ** process.py:621-676 pulsed_noise *)
Section PulsedNoise.
(** np.random.randn(n) for the i-th call; irfft(rfft(s)/sqrt(1..)) *)
Variable randn : nat -> nat -> list R.
Variable pink : list R -> list R.
(** np.linspace(0, pi/2, n)[i] *)
Definition lin_fade (n i : nat) : R :=
  if Nat.eqb n 1 then 0 else INR i * (PI / 2) / INR (n - 1).
Definition mask_in (n : nat) : list R := map (fun i => sin (lin_fade n i) ^ 2) (seq 0 n).
Definition mask_out (n : nat) : list R := map (fun i => cos (lin_fade n i) ^ 2) (seq 0 n).
(** [l[a:b] *= m]: numpy in-place multiplication; the result must have the
    length of the slice *)
Definition imul_slice (l : list R) (a b : Z) (m : list R) : res (list R) :=
  let s := slice l a b in
  let* r := mul_arrays s m in
  if Nat.eqb (length r) (length s) then slice_set l a b r else Err ValueError.
Definition pn_pulse (i : nat) (t_noise t_pause : R) (fs : Z) (t_fade : R) (pink_noise : bool)
    : res (list R) :=
  let n := py_int (IZR fs * t_noise) in
  if Z.ltb n 0 then Err ValueError else
  let s := randn i (Z.to_nat n) in
  let s := if pink_noise then pink s else s in
  let s_pause := repeat 0 (Z.to_nat n) in
  let mn := py_int (IZR fs * t_fade) in
  if Z.ltb mn 0 then Err ValueError else
  let* s := imul_slice s 0 mn (mask_in (Z.to_nat mn)) in
  let* s := imul_slice s (- mn) (Z.of_nat (length s)) (mask_out (Z.to_nat mn)) in
  Ok (s ++ s_pause).
(** NaN output ([None]) if the peak is 0 *)
Definition pulsed_noise (t_noise t_pause : R) (fs : Z) (reps : nat) (t_fade : R)
    (pink_noise normalize : bool) : res (option (list R)) :=
  let* ps := mapM (fun i => pn_pulse i t_noise t_pause fs t_fade pink_noise) (seq 0 reps) in
  let s := concat ps in
  if normalize then
    if Nat.eqb reps 0 then Err TypeError else
    let* p := np_max (map Rabs s) in
    Ok (if Reqb p 0 then None else Some (map (fun x => x / p) s))
  else Ok (Some s).
End PulsedNoise.

(** ** process.py:327-341 b_to_stereo *)
Definition b_to_stereo (w x y : R) : R * R :=
  (w + (x + y) / sqrt 2, w + (x - y) / sqrt 2).

(** ** process.py:197-228 ilds_from_hrirs after the band-pass filter; utils.rms *)
Definition rms1 (l : list R) : R := sqrt (lsum (map (fun x => x ^ 2) l) / INR (length l)).

(** ** process.py:231-271 itds_from_hrirs after resampling and filtering.
    np.correlate(a, v, 'same') for equal lengths n: entries of the full
    correlation c[k] = sum_i a[i + k - (n-1)] v[i], k = 0..2n-2, from (n-1)//2 on *)
Definition corr_full (a v : list R) (k : nat) : R :=
  rsum (length v) (fun i =>
    if Nat.leb (length v - 1) (i + k) then nth (i + k - (length v - 1)) a 0 * nth i v 0 else 0).
Definition corr_same (a v : list R) : list R :=
  map (fun j => corr_full a v (j + (length v - 1) / 2)) (seq 0 (length v)).
Definition itd1 (l r : list R) (fs_rs : R) : res R :=
  let sq := map (fun x => x ^ 2) in
  let* k := argmax (corr_same (sq l) (sq r)) in
  Ok (- (INR k - INR (length l / 2)) / fs_rs).
