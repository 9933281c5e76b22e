(** Specifications for the properties of process.py, independent of the model. *)
From Verif Require Import Base.
Open Scope R_scope.

(** ** fractional octave smoothing *)
(** bin [j] lies in the 1/n-octave window around bin [idx] (bin 0 stands alone):
    [c] is half the bandwidth factor, 2^(1/(2n)) *)
Definition in_window (c : R) (idx j : nat) : Prop :=
  match idx with
  | O => j = O
  | _ => INR idx / c - 1 < INR j /\ INR j < INR idx * c
  end.

(** [v] is a weighted mean of [a] over the index set [W] with positive weights *)
Definition weighted_mean (a : list R) (W : nat -> Prop) (v : R) : Prop :=
  exists w : nat -> R,
    (forall j, (j < length a)%nat -> W j -> 0 < w j) /\
    (forall j, (j < length a)%nat -> ~ W j -> w j = 0) /\
    rsum (length a) w = 1 /\
    v = rsum (length a) (fun j => w j * nth j a 0).

(** ** fractional octave filter bank *)
(** [k] is the nearest integer, ties to even *)
Definition is_round (k : Z) (x : R) : Prop :=
  Rabs (IZR k - x) <= 1 / 2 /\ (Rabs (IZR k - x) = 1 / 2 -> Z.even k = true).
(** [k] is the integer part of [x >= 0] *)
Definition is_floor (k : Z) (x : R) : Prop := IZR k <= x < IZR k + 1.

(** the octave fraction: ratio of band edge to band centre *)
Definition half_step (n : R) : R := Rpower 2 (1 / (2 * n)).
(** centre of band [i] *)
Definition centre (n f_low : R) (i : nat) : R := f_low * Rpower 2 (INR i / n).
(** lower edge of band [i], in DFT lines *)
Definition edge (N_out : nat) (fs n f_low : R) (i : nat) : R :=
  2 * (INR N_out - 1) * (centre n f_low i / half_step n) / fs.
(** bands are added until the upper edge reaches [f_high]: there are [M] of them *)
Definition band_count (n f_low f_high : R) (M : nat) : Prop :=
  (1 <= M)%nat /\
  (forall i, (S i < M)%nat -> centre n f_low i * half_step n < f_high) /\
  f_high <= centre n f_low (M - 1) * half_step n.
(** [k i], [P i]: line and half width of the transition at the lower edge of band [i] *)
Definition transitions (N_out : nat) (fs n f_low overlap : R) (M : nat) (k P : nat -> nat) : Prop :=
  forall i, (i < M)%nat ->
    is_floor (Z.of_nat (k i)) (edge N_out fs n f_low i) /\
    is_round (Z.of_nat (P i)) (overlap * (edge N_out fs n f_low i * (half_step n - 1))).
(** transitions do not overlap, and end below the last bin *)
Definition separated (N_out M : nat) (k P : nat -> nat) : Prop :=
  (forall i, (S i < M)%nat -> (k i + P i + P (S i) <= k (S i))%nat) /\
  (forall i, (i < M)%nat -> (k i + P i < N_out)%nat).

(** ** polynomials given by their coefficients *)
Definition peval (c : list R) (x : R) : R :=
  rsum (length c) (fun i => nth i c 0 * x ^ i).

(** ** order of arrival of the chunks of a worker pool: every chunk number once *)
Definition full_order (ntasks chunksize : nat) (order : list nat) : Prop :=
  NoDup order /\ forall i, In i order <-> (i * chunksize < ntasks)%nat.

(** ** loudness *)
(** root mean square of channel [j] of an (n, c) array *)
Definition chan_rms (a : mat) (j : nat) : R :=
  sqrt (rsum (nr a) (fun i => ent a i j * ent a i j) / INR (nr a)).
(** [L] is the largest channel RMS *)
Definition max_rms (a : mat) (L : R) : Prop :=
  (exists j, (j < nc a)%nat /\ chan_rms a j = L) /\
  (forall j, (j < nc a)%nat -> chan_rms a j <= L).
(** [p] is the largest magnitude *)
Definition peak (a : mat) (p : R) : Prop :=
  (exists i j, (i < nr a)%nat /\ (j < nc a)%nat /\ Rabs (ent a i j) = p) /\
  (forall i j, (i < nr a)%nat -> (j < nc a)%nat -> Rabs (ent a i j) <= p).

(** ** the same pulse [x], scaled by [g], arriving at sample [p] of [n] *)
Definition pulse_at (n p : nat) (g : R) (x : list R) (h : list R) : Prop :=
  length h = n /\ (p + length x <= n)%nat /\
  (forall i, (i < length x)%nat -> nth (p + i) h 0 = g * nth i x 0) /\
  (forall i, (i < n)%nat -> (i < p)%nat \/ (p + length x <= i)%nat -> nth i h 0 = 0).

(** ** levels in dB; [None] is minus infinity *)
Definition dB_le (x y : option R) : Prop :=
  match x, y with
  | None, _ => True
  | Some _, None => False
  | Some a, Some b => a <= b
  end.
