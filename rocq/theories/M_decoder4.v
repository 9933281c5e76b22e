(** Model of /repo/spaudiopy/decoder.py, part 4: magls_bin (lines 1326-1468).
    np.linalg.pinv is a parameter; the spectra are lists over the frequency bins
    of vectors of coefficients. *)
From Verif Require Import Base M_utils M_sig M_process M_sph M_parsa2 M_parsa3.
Open Scope R_scope.

(** real matrix times complex vector *)
Definition rmatvec (A : mat) (v : list C2) : res (list C2) :=
  if Nat.eqb (nc A) (length v)
  then Ok (map (fun i => csum (nc A) (fun j => cscal (ent A i j) (nth j v (0, 0)))) (seq 0 (nr A)))
  else Err ValueError.
(** np.fft.rfft(x, n) *)
Definition rfft_n (x : list R) (n : nat) : list C2 := firstn (n / 2 + 1) (fft x n).
(** np.fft.irfft(X) with the default length 2 (len(X) - 1), len(X) >= 2 *)
Definition irfft (X : list C2) : list R :=
  let m := (length X - 1)%nat in
  let n := (2 * m)%nat in
  map (fun t => / INR n * (fst (nth 0 X (0, 0)) + (-1) ^ t * fst (nth m X (0, 0)) +
         rsum (m - 1) (fun i => 2 * (fst (nth (S i) X (0, 0)) * cos (2 * PI * INR (S i * t) / INR n)
                                     - snd (nth (S i) X (0, 0)) * sin (2 * PI * INR (S i * t) / INR n)))))
      (seq 0 n).
(** [H[:, k]] *)
Definition bin_of (H : list (list C2)) (k : nat) : list C2 := map (fun r => nth k r (0, 0)) H.
(** np.angle *)
Definition angle (z : C2) : R := arctan2 (snd z) (fst z).
(** np.argmin: the first minimum *)
Definition argmin (l : list R) : res nat := argmax (map Ropp l).
(** np.unwrap: the correction at one jump, its running sum *)
Definition unwrap_step (dd : R) : R :=
  if Rltb (Rabs dd) PI then 0
  else let ddmod := pymod (dd + PI) (2 * PI) - PI in
       (if Reqb ddmod (- PI) && Rltb 0 dd then PI else ddmod) - dd.
Fixpoint unwrap_from (prev corr : R) (l : list R) : list R :=
  match l with
  | [] => []
  | x :: t => let c := corr + unwrap_step (x - prev) in (x + c) :: unwrap_from x c t
  end.
Definition np_unwrap (l : list R) : list R := match l with [] => [] | x :: t => x :: unwrap_from x 0 t end.
Fixpoint np_diff (l : list R) : list R :=
  match l with a :: t => match t with [] => [] | b :: _ => (b - a) :: np_diff t end | [] => [] end.
(** np.mean of a non-empty array *)
Definition np_mean (l : list R) : R := lsum l / INR (length l).

Inductive hfcont : Set := Avg | Angle | Delay | OtherCont.
(** decoder.py:1420-1432: mean of np.diff(np.unwrap(p)[k_cuton-n_delta-1:k_cuton-1]), n_delta = 5 *)
Definition slope (k_cuton : nat) (p : list R) : R :=
  np_mean (np_diff (slice (np_unwrap p) (Z.of_nat k_cuton - 6) (Z.of_nat k_cuton - 1))).
(** decoder.py:1444-1459: one ear of the loop over the bins from k_cuton.  In bin 0
    the index k - 1 is the last bin. *)
Fixpoint magls_loop (Y Y_pinv : mat) (H : list (list C2)) (delta : list R) (ks : list nat) (h : list (list C2)) : res (list (list C2)) :=
  match ks with
  | [] => Ok h
  | k :: t =>
      let* prev := index h (Z.of_nat k - 1) in
      let* a := rmatvec Y prev in
      let phi := map (fun q => angle (fst q) + snd q) (combine a delta) in
      let* new := rmatvec Y_pinv (map (fun q => cscal (cabs (fst q)) (cos (snd q), sin (snd q))) (combine (bin_of H k) phi)) in
      magls_loop Y Y_pinv H delta t (upd h k new)
  end.
(** decoder.py:1402-1459 for one ear; the code treats the two ears alike *)
Definition magls_ear (Y Y_pinv : mat) (H : list (list C2)) (bins k_cuton : nat) (cont : hfcont) (hf : R) : res (list (list C2)) :=
  let* lin := mapM (fun k => rmatvec Y_pinv (bin_of H k)) (seq 0 k_cuton) in
  let* app := mapM (rmatvec Y) lin in
  let* delta :=
    match cont with
    | Avg => let* _ := assert_ (Nat.ltb 5 k_cuton) in
             Ok (repeat (slope k_cuton (map (fun c => angle (nth 0 c (0, 0))) lin)) (nr Y))
    | Angle => let* _ := assert_ (Nat.ltb 5 k_cuton) in
               Ok (map (fun g => slope k_cuton (map (fun a => angle (nth g a (0, 0))) app ++ repeat 0 (bins - k_cuton))) (seq 0 (nr Y)))
    | Delay => Ok (repeat 0 (nr Y))
    | OtherCont => Err ValueError
    end in
  magls_loop Y Y_pinv H (map (fun d => d - hf) delta) (seq k_cuton (bins - k_cuton))
             (lin ++ repeat (repeat (0, 0) (nc Y)) (bins - k_cuton)).
(** decoder.py:1464-1467 *)
Definition taper_ends (x : list R) : res (list R) :=
  let* x := imul_slice x (-32) (Z.of_nat (length x)) (slice_from (np_hanning 64) 32) in
  imul_slice x 0 4 (slice_to (np_hanning 8) 4).
(** decoder.py:1461-1467: back to time, one row per coefficient *)
Definition magls_rows (nm taps : nat) (h : list (list C2)) : res (list (list R)) :=
  mapM (fun j => taper_ends (slice_to (irfft (map (fun c => nth j c (0, 0)) h)) (Z.of_nat taps))) (seq 0 nm).
(** decoder.py:1326-1468 magls_bin: left and right matrix of the stacked result.
    num_grid_points is the number of directions, as the constructor sets it. *)
Definition magls_bin (pinv : mat -> mat) (hr : hrirs) (N_sph : nat) (f_trans : option R) (cont : hfcont) (hf_delay : R * R)
    : res (list (list R) * list (list R)) :=
  let f_trans := match f_trans with Some f => f | None => INR N_sph * 600 end in
  let fs := IZR (h_fs hr) in
  if Reqb fs 0 then Err ZeroDivisionError else
  let nfft := Nat.max 1024 (h_taps hr) in
  let freqs := map (fun k => INR k / (INR nfft * (1 / fs))) (seq 0 (nfft / 2 + 1)) in
  let hrtfs_l := map (fun x => rfft_n x nfft) (h_left hr) in
  let hrtfs_r := map (fun x => rfft_n x nfft) (h_right hr) in
  let* k_cuton := argmin (map (fun f => Rabs (f - f_trans)) freqs) in
  let* Y := sh_matrix N_sph (h_azi hr) (h_zen hr) in
  let Y_pinv := pinv Y in
  let delta_w := 2 * PI * nth 1 freqs 0 in
  let* l := magls_ear Y Y_pinv hrtfs_l (length freqs) k_cuton cont (delta_w * (fst hf_delay / fs)) in
  let* r := magls_ear Y Y_pinv hrtfs_r (length freqs) k_cuton cont (delta_w * (snd hf_delay / fs)) in
  let* l := magls_rows ((N_sph + 1) ^ 2) (h_taps hr) l in
  let* r := magls_rows ((N_sph + 1) ^ 2) (h_taps hr) r in
  Ok (l, r).
