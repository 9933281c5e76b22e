(** Specification of the magnitude least-squares binaural decoder. *)
From Verif Require Import Base M_utils M_sig M_sph M_decoder4 S_grids S_lsq.
Open Scope R_scope.

(** bin [k] of the Fourier transform of length [n] *)
Definition dft (n : nat) (x : list R) (k : nat) : C2 :=
  (rsum n (fun j => nth j x 0 * cos (2 * PI * INR (j * k) / INR n)),
   - rsum n (fun j => nth j x 0 * sin (2 * PI * INR (j * k) / INR n))).
(** sample [t] of the real signal of length 2 m with the bins 0 ... m *)
Definition synth (m : nat) (X : nat -> C2) (t : nat) : R :=
  / INR (2 * m) * (fst (X 0%nat) + (-1) ^ t * fst (X m) +
    rsum (m - 1) (fun i => 2 * (fst (X (S i)) * cos (2 * PI * INR (S i * t) / INR (2 * m))
                                - snd (X (S i)) * sin (2 * PI * INR (S i * t) / INR (2 * m))))).
Definition modulus (z : C2) : R := sqrt (fst z ^ 2 + snd z ^ 2).
(** the argument in (-pi, pi], 0 for 0 *)
Definition arg (z : C2) : R := arctan2 (snd z) (fst z).
Definition polar (r a : R) : C2 := (r * cos a, r * sin a).
(** what the coefficients [c] give in direction [g] *)
Definition decoded (Y : mat) (c : nat -> C2) (g : nat) : C2 :=
  (rsum (nc Y) (fun j => ent Y g j * fst (c j)), rsum (nc Y) (fun j => ent Y g j * snd (c j))).
(** smallest least-squares fit, real and imaginary part *)
Definition cfit (Y : mat) (t c : nat -> C2) : Prop :=
  best_fit Y (fun g => fst (t g)) (fun j => fst (c j)) /\ best_fit Y (fun g => snd (t g)) (fun j => snd (c j)).
(** [u] continues the phases [p] without jumps larger than pi *)
Definition unwrapped (n : nat) (p u : nat -> R) : Prop :=
  u 0%nat = p 0%nat /\
  (forall k, (k < n)%nat -> exists m : Z, u k = p k + 2 * PI * IZR m) /\
  (forall k, (S k < n)%nat -> Rabs (u (S k) - u k) <= PI).
(** mean increment of the continued phases over the bins kc-6 ... kc-2 *)
Definition mean_increment (kc : nat) (p : nat -> R) (d : R) : Prop :=
  exists u, unwrapped kc p u /\ d = (u (kc - 2)%nat - u (kc - 6)%nat) / 4.
(** the phase increments by which the decoder continues above bin [kc] *)
Definition phase_step (cont : hfcont) (Y : mat) (c : nat -> nat -> C2) (kc : nat) (delta : nat -> R) : Prop :=
  match cont with
  | Avg => (5 < kc)%nat /\ exists d, mean_increment kc (fun k => arg (c k 0%nat)) d /\ forall g, (g < nr Y)%nat -> delta g = d
  | Angle => (5 < kc)%nat /\ forall g, (g < nr Y)%nat -> mean_increment kc (fun k => arg (decoded Y (c k) g)) (delta g)
  | Delay => forall g, (g < nr Y)%nat -> delta g = 0
  | OtherCont => False
  end.
(** coefficients [c] per bin: below [kc] a fit of the responses [H g k], from there
    on a fit of their magnitudes with the phase of the previous bin, continued *)
Definition magls_spectrum (Y : mat) (H : nat -> nat -> C2) (kc bins : nat) (cont : hfcont) (shift : R) (c : nat -> nat -> C2) : Prop :=
  exists delta, phase_step cont Y c kc delta /\
    forall k, (k < bins)%nat ->
      ((k < kc)%nat -> cfit Y (fun g => H g k) (c k)) /\
      ((kc <= k)%nat ->
         cfit Y (fun g => polar (modulus (H g k))
                  (arg (match k with O => (0, 0) | S k' => decoded Y (c k') g end) + (delta g - shift))) (c k)).
(** the bin nearest to frequency [f] *)
Definition nearest_bin (n : nat) (fs f : R) (kc : nat) : Prop :=
  (kc <= n / 2)%nat /\
  (forall k, (k <= n / 2)%nat -> Rabs (INR kc * fs / INR n - f) <= Rabs (INR k * fs / INR n - f)) /\
  (forall k, (k < kc)%nat -> Rabs (INR kc * fs / INR n - f) < Rabs (INR k * fs / INR n - f)).
(** Hann fades: the first 4 and the last 32 of [len] samples *)
Definition edge_taper (len t : nat) : R :=
  (if Nat.ltb t 4 then (1 - cos (2 * PI * INR t / 7)) / 2 else 1) *
  (if Nat.leb (len - 32) t then (1 - cos (2 * PI * INR (t + 64 - len) / 63)) / 2 else 1).
(** [rows] are the filters with the bins [c k j], cut to [taps] samples and tapered *)
Definition filters (Y : mat) (n taps : nat) (c : nat -> nat -> C2) (rows : list (list R)) : Prop :=
  length rows = nc Y /\
  forall j, (j < nc Y)%nat ->
    length (nth j rows []) = Nat.min taps (2 * (n / 2)) /\
    forall t, (t < Nat.min taps (2 * (n / 2)))%nat ->
      nth t (nth j rows []) 0 = edge_taper (Nat.min taps (2 * (n / 2))) t * synth (n / 2) (fun k => c k j) t.
(** one ear: [rows] are the filters, [x] the responses of the ear *)
Definition magls_result (Y : mat) (x : list (list R)) (n taps kc : nat) (cont : hfcont) (shift : R) (rows : list (list R)) : Prop :=
  exists c, magls_spectrum Y (fun g => dft n (nth g x [])) kc (n / 2 + 1) cont shift c /\ filters Y n taps c rows.
(** the filters give the responses below bin [kc], their magnitudes everywhere *)
Definition magls_exact (Y : mat) (x : list (list R)) (n taps kc : nat) (rows : list (list R)) : Prop :=
  exists c, filters Y n taps c rows /\
    forall k g, (k < n / 2 + 1)%nat -> (g < nr Y)%nat ->
      ((k < kc)%nat -> decoded Y (c k) g = dft n (nth g x []) k) /\ modulus (decoded Y (c k) g) = modulus (dft n (nth g x []) k).
(** transition frequency *)
Definition cuton (f_trans : option R) (N : nat) : R := match f_trans with Some f => f | None => INR N * 600 end.
(** a known continuation with enough bins below the transition *)
Definition cont_ok (cont : hfcont) (kc : nat) : Prop :=
  match cont with Avg | Angle => (5 < kc)%nat | Delay => True | OtherCont => False end.
(** the phases above the transition continue by [theta] per bin *)
Definition continues (cont : hfcont) (theta shift : R) : Prop :=
  match cont with Avg | Angle => shift = 0 | Delay => theta = - shift | OtherCont => False end.
(** no more directions than coefficients, and independent *)
Definition right_invertible (A : mat) : Prop :=
  exists X : mat, forall a b, (a < nr A)%nat -> (b < nr A)%nat -> mprod (nc A) A X a b = delta a b.
(** the arguments of magls_bin: [n] transform length, [kc] transition bin, [Y] the
    spherical harmonics of the grid, [pinv Y] its pseudo-inverse *)
Definition magls_setup (pinv : mat -> mat) (hr : hrirs) (N : nat) (f_trans : option R) (Y : mat) (n kc : nat) : Prop :=
  h_fs hr <> 0%Z /\ length (h_zen hr) = length (h_azi hr) /\ length (h_left hr) = length (h_azi hr) /\ length (h_right hr) = length (h_azi hr) /\
  sh_matrix N (h_azi hr) (h_zen hr) = Ok Y /\ penrose Y (pinv Y) /\
  n = Nat.max 1024 (h_taps hr) /\ nearest_bin n (IZR (h_fs hr)) (cuton f_trans N) kc.
(** the responses [x] share a delay: up to the phase [theta] per bin their spectra are
    the amplitudes [a], whose fits stay positive in all directions and in the
    omnidirectional coefficient *)
Definition common_delay (Y : mat) (x : list (list R)) (n : nat) (theta : R) (a : nat -> nat -> R) : Prop :=
  Rabs theta < PI /\
  forall k, (k <= n / 2)%nat ->
    (forall g, (g < nr Y)%nat -> 0 <= a g k /\ dft n (nth g x []) k = polar (a g k) (theta * INR k)) /\
    (forall b, best_fit Y (fun g => a g k) b ->
       0 < b 0%nat /\ forall g, (g < nr Y)%nat -> 0 < rsum (nc Y) (fun j => ent Y g j * b j)).
(** the tapered fit of the responses, sample by sample *)
Definition plain_fit (Y : mat) (x : list (list R)) (taps : nat) (rows : list (list R)) : Prop :=
  length rows = nc Y /\ (forall j, (j < nc Y)%nat -> length (nth j rows []) = taps) /\
  forall t, (t < taps)%nat -> exists h, best_fit Y (fun g => nth t (nth g x []) 0) h /\
    forall j, (j < nc Y)%nat -> nth t (nth j rows []) 0 = edge_taper taps t * h j.
(** pulses of weights [w] at sample [d] *)
Definition pulses (x : list (list R)) (G d : nat) (w : nat -> R) : Prop :=
  forall g t, (g < G)%nat -> nth t (nth g x []) 0 = if Nat.eqb t d then w g else 0.
(** the filters of pulses: the fit [b] of the weights at sample [d] *)
Definition pulse_rows (Y : mat) (taps d : nat) (b : nat -> R) (rows : list (list R)) : Prop :=
  length rows = nc Y /\ forall j, (j < nc Y)%nat -> length (nth j rows []) = taps /\
    forall t, (t < taps)%nat -> nth t (nth j rows []) 0 = if Nat.eqb t d then edge_taper taps t * b j else 0.
