(** Specifications for panning with imaginary loudspeakers and for VBIP. *)
From Verif Require Import Base M_decoder S_decoder S_decoder2.
Open Scope R_scope.

(** the gains of the loudspeakers [reals] out of the gains of all *)
Definition only (reals : list nat) (all row : list R) : Prop :=
  length row = length reals /\ forall l, (l < length reals)%nat -> nth l row 0 = nth (nth l reals 0%nat) all 0.
(** energy on the loudspeakers of a list of indices *)
Definition energy_on (idx : list nat) (n : nat) (g : list R) : R :=
  rsum n (fun j => if in_dec Nat.eq_dec j idx then nth j g 0 ^ 2 else 0).
Definition total_energy (g : list R) : R := rsum (length g) (fun j => nth j g 0 ^ 2).
(** [r] is proportional to the roots of the positive entries of [g] *)
Definition roots_of (g r : list R) : Prop :=
  length r = length g /\ exists c, 0 < c /\ forall j, (j < length g)%nat -> nth j r 0 = c * sqrt (Rmax 0 (nth j g 0)).
(** vector sum of the loudspeakers weighted by energy, distances compensated *)
Definition intensity (h : hull) (r : list R) : V3 :=
  let w j := nth j r 0 ^ 2 / dist_gain (nth j (h_d h) 0) (h_a h) in
  let p j := nth j (h_points h) (0, 0, 0) in
  (rsum (length r) (fun j => w j * vx (p j)), rsum (length r) (fun j => w j * vy (p j)), rsum (length r) (fun j => w j * vz (p j))).
