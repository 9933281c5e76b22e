(** Vocabulary for sets of source directions. *)
From Verif Require Import Base M_utils S_sph.
Open Scope R_scope.

(** unit vector of direction [g] of a grid *)
Definition dirv (azi zen : list R) (g : nat) : V3 := sph2cart (nth g azi 0) (nth g zen 0) 1.
Definition distinct (azi zen : list R) : Prop := forall s t, (s < length azi)%nat -> (t < length azi)%nat -> dirv azi zen s = dirv azi zen t -> s = t.
(** [cov] is the covariance of the SH signals of order [N] of uncorrelated sources of powers [p] at
    distinct directions in white noise of power [sg]; [Y] are the harmonics *)
Definition sources_in_noise (Y : nat -> Z -> R -> R -> R) (N : nat) (sa sz p : list R) (sg : R) (cov : mat) : Prop :=
  length sz = length sa /\ length p = length sa /\ zeniths sz /\ distinct sa sz /\ (forall x, In x p -> 0 < x) /\ nr cov = ((N + 1) ^ 2)%nat /\ nc cov = nr cov /\
  forall n m n' m', (n <= N)%nat -> degree n m -> (n' <= N)%nat -> degree n' m' -> ent cov (acn n m) (acn n' m') = sg * delta (acn n m) (acn n' m') +
    rsum (length sa) (fun s => nth s p 0 * (Y n m (nth s sa 0) (nth s sz 0) * Y n' m' (nth s sa 0) (nth s sz 0))).
