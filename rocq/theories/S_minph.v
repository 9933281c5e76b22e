(** Specification of minimum phase filters. *)
From Verif Require Import Base M_sph S_magls.
Open Scope R_scope.

(** the transforms of filters with [len] coefficients have [n] bins: the power of two
    from 200 (len - 1) on *)
Definition transform_size (len n : nat) : Prop :=
  (exists p, n = (2 ^ p)%nat) /\ (200 * (len - 1) <= n < 400 * (len - 1))%nat.
(** [m] is the least gain of the filter that is not 0 *)
Definition least_gain (n : nat) (h : list R) (m : R) : Prop :=
  0 < m /\ (exists k, (k < n)%nat /\ modulus (dft n h k) = m) /\
  forall k, (k < n)%nat -> 0 < modulus (dft n h k) -> m <= modulus (dft n h k).
(** the gain of bin [k] lifted above 0 *)
Definition lifted (n : nat) (h : list R) (m : R) (k : nat) : R := modulus (dft n h k) + m / 10 ^ 7.
(** sample [t] of the real cepstrum of the root of these gains *)
Definition cepstrum (n : nat) (h : list R) (m : R) (t : nat) : R :=
  / INR n * rsum n (fun k => ln (sqrt (lifted n h m k)) * cos (2 * PI * INR k * INR t / INR n)).
(** the share of sample [t] that is kept: all of sample 0, twice the following ones *)
Definition share (newer : bool) (len n t : nat) : R :=
  if Nat.eqb t 0 then 1
  else if newer then (if Nat.ltb (2 * t) n then 2 else 0)
  else if Nat.ltb (2 * t) len then 2
  else if Nat.eqb (2 * t) (len + 1) then 1 else 0.
Definition cexp (z : C2) : C2 := (exp (fst z) * cos (snd z), exp (fst z) * sin (snd z)).
(** [u] is the response, on [n] bins, whose complex logarithm is the transform of the
    causal half of the cepstrum *)
Definition minimum_phase_of (newer : bool) (h : list R) (n : nat) (u : list R) : Prop :=
  exists m f, least_gain n h m /\ length u = n /\ length f = n /\
    (forall t, (t < n)%nat -> nth t f 0 = share newer (length h) n t * cepstrum n h m t) /\
    forall k, (k < n)%nat -> dft n u k = cexp (dft n f k).
(** one pulse at the beginning *)
Definition first_pulse (len : nat) (a : R) : list R := map (fun t => if Nat.eqb t 0 then a else 0) (seq 0 len).
(** the factor that lifting the gains leaves *)
Definition trim : R := sqrt (1 + 1 / 10 ^ 7).
