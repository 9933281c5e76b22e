(** Specification of least-squares fits. *)
From Verif Require Import Base.
Open Scope R_scope.

(** squared error of [Y c] against the target [t], and squared length of [c] *)
Definition misfit (Y : mat) (t c : nat -> R) : R :=
  rsum (nr Y) (fun g => (rsum (nc Y) (fun k => ent Y g k * c k) - t g) ^ 2).
Definition size2 (n : nat) (c : nat -> R) : R := rsum n (fun k => c k ^ 2).
(** no coefficients fit better, and none of the same quality are smaller *)
Definition best_fit (Y : mat) (t c : nat -> R) : Prop :=
  forall c', misfit Y t c <= misfit Y t c' /\ (misfit Y t c' = misfit Y t c -> size2 (nc Y) c <= size2 (nc Y) c').
