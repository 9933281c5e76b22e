(** Special functions the code takes from scipy.special, as recurrences: Legendre
    polynomials, associated Legendre functions and spherical harmonics.  These are
    the mathematical definitions scipy documents; S_sph.v restates them by
    derivatives and P_sph1.v proves the two agree. *)
From Verif Require Import Base.

(** pair (P_{n-1}(x), P_n(x)) of Legendre polynomials by Bonnet's recurrence *)
Fixpoint leg2 (n : nat) (x : R) : R * R :=
  match n with
  | O => (0, 1)
  | S k => let (a, b) := leg2 k x in
           (b, ((2 * INR k + 1) * x * b - INR k * a) / (INR k + 1))
  end.
(** scipy.special.eval_legendre(n, x) for an integer n >= 0, as used in
    sph.py:689-690 and sph.py:728 *)
Definition eval_legendre (n : nat) (x : R) : R := snd (leg2 n x).

(** (2m-1)!! *)
Fixpoint dfact (m : nat) : R :=
  match m with O => 1 | S k => (2 * INR k + 1) * dfact k end.

(** pair (P_{m+k-1}^m(x), P_{m+k}^m(x)) of associated Legendre functions with the
    Condon-Shortley phase *)
Fixpoint lpmv2 (m k : nat) (x : R) : R * R :=
  match k with
  | O => (0, (-1) ^ m * dfact m * sqrt (1 - x * x) ^ m)
  | S j => let (a, b) := lpmv2 m j x in
           (b, ((2 * INR (m + j) + 1) * x * b - INR (2 * m + j) * a) / (INR j + 1))
  end.
(** scipy.special.lpmv(m, n, x) for integers 0 <= m, n *)
Definition lpmv (m n : nat) (x : R) : R :=
  if Nat.leb m n then snd (lpmv2 m (n - m) x) else 0.

(** scipy.special.sph_harm(m, n, azi, zen), as used in sph.py:97-108: a pair
    (real, imaginary) *)
Definition sph_harm (m : Z) (n : nat) (azi zen : R) : R * R :=
  let p := Z.abs_nat m in
  let a := sqrt ((2 * INR n + 1) / (4 * PI) * (INR (fact (n - p)) / INR (fact (n + p))))
           * lpmv p n (cos zen) in
  if (m <? 0)%Z then ((-1) ^ p * (a * cos (INR p * azi)), - ((-1) ^ p * (a * sin (INR p * azi))))
  else (a * cos (INR p * azi), a * sin (INR p * azi)).
