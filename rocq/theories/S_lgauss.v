(** Specifications for Gauss-Legendre quadrature. *)
From Verif Require Import Base S_sph S_parsa.
Open Scope R_scope.

(** np.linalg.eigvalsh: the eigenvalues of np.linalg.eigh *)
Definition is_eigvalsh (A : mat) (w : list R) : Prop := exists V, is_eigh A w V.
(** the roots of the Legendre polynomial of degree [n] in ascending order *)
Definition legendre_roots (n : nat) (x : list R) : Prop :=
  length x = n /\ (forall i j, (i < j < n)%nat -> nth i x 0 < nth j x 0) /\ (forall y, In y x -> -1 < y < 1) /\
  exists P, is_legendre n P /\ forall y, P y = 0 <-> In y x.
(** the weights of Gauss-Legendre quadrature: 2 / ((1 - x^2) P'(x)^2) *)
Definition gauss_weights (n : nat) (x w : list R) : Prop :=
  length w = n /\ exists P P', is_legendre n P /\ (forall y, derivable_pt_lim P y (P' y)) /\
  forall i, (i < n)%nat -> (1 - nth i x 0 * nth i x 0) * P' (nth i x 0) ^ 2 * nth i w 0 = 2.
