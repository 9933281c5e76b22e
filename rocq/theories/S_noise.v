(** Specification vocabulary: energies of signals, sums of arrays. *)
From Verif Require Import Base.
Open Scope R_scope.

(** energy of signal [j] *)
Definition col_energy (A : mat) (j : nat) : R := rsum (nr A) (fun i => ent A i j ^ 2).
(** sum of two arrays *)
Definition sum_of (A B C : mat) : Prop :=
  nr B = nr A /\ nc B = nc A /\ nr C = nr A /\ nc C = nc A /\ forall i j, (i < nr A)%nat -> (j < nc A)%nat -> ent C i j = ent A i j + ent B i j.
