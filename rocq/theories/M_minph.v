(** Model of scipy.signal.minimum_phase(h), called at spaudiopy/process.py:187, with its
    default method 'homomorphic' and its default length of the transforms.  The filter
    is real and has one axis.  The warning about filters that are not symmetric is left
    out.  SciPy 1.14 has changed where the cepstrum is cut; [newer] selects. *)
From Verif Require Import Base M_utils M_process M_sph M_parsa3.
Open Scope R_scope.

(** np.min *)
Definition np_min (l : list R) : res R :=
  match l with [] => Err ValueError | x :: t => Ok (fold_left Rmin t x) end.
(** 2 ** int(np.ceil(np.log2(2 * (len(h) - 1) / 0.01))) *)
Definition minph_nfft (len : nat) : nat := (2 ^ Nat.log2_up (200 * (len - 1)))%nat.
(** the filter on the cepstrum: win[0] = 1; win[1:stop] = 2; if L % 2: win[stop] = 1,
    where L is len(h) and stop = (L + 1) // 2, since 1.14 L is n_fft and stop = L // 2 *)
Definition minph_window (newer : bool) (len n : nat) : list R :=
  let L := if newer then n else len in
  let stop := if newer then (n / 2)%nat else ((len + 1) / 2)%nat in
  let win := map (fun t => if Nat.eqb t 0 then 1 else if Nat.ltb t stop then 2 else 0) (seq 0 n) in
  if Nat.odd L then upd win stop 1 else win.
(** np.exp of a complex number *)
Definition np_cexp (z : C2) : C2 := (exp (fst z) * cos (snd z), exp (fst z) * sin (snd z)).
(** the cepstrum: real part of ifft(0.5 log(|H| + 1e-7 min)) *)
Definition minph_cepstrum (mag : list R) (m : R) : list R :=
  ifft_re (map (fun x => (ln (x + 1 / 10000000 * m) * (1 / 2), 0)) mag).
(** the response before it is cut *)
Definition minph_full (newer : bool) (h : list R) : res (list R) :=
  let n := minph_nfft (length h) in
  let mag := map cabs (fft h n) in
  let* m := np_min (filter (Rltb 0) mag) in
  let c := minph_cepstrum mag m in
  let f := zip_mul c (minph_window newer (length h) n) in
  Ok (ifft_re (map np_cexp (fft f n))).
Definition minimum_phase (newer : bool) (h : list R) : res (list R) :=
  if Nat.leb (length h) 2 then Err ValueError else
  let* u := minph_full newer h in
  Ok (slice_to u (Z.of_nat (length h / 2 + length h mod 2))).
(** as hrirs_ctf calls it: its argument has 16 samples or more, not all of them 0 *)
Definition minph (newer : bool) (h : list R) : list R :=
  match minimum_phase newer h with Ok y => y | Err _ => [] end.
