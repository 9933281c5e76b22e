(** Specification vocabulary for eigenvalues and for products of distances. *)
From Verif Require Import Base M_sph S_zp.
Open Scope R_scope.

(** [z] is an eigenvalue of the square matrix [A]: some vector that is not zero is scaled by it *)
Definition eigenvalue (A : mat) (z : C2) : Prop :=
  exists v : nat -> C2, (exists i, (i < nr A)%nat /\ v i <> (0, 0)) /\
    forall i, (i < nr A)%nat -> csum (nc A) (fun j => cscal (ent A i j) (v j)) = cmul z (v i).
Definition mirror (z : C2) : C2 := (fst z, - snd z).
Definition distance (z r : C2) : R := sqrt ((fst z - fst r) ^ 2 + (snd z - snd r) ^ 2).
Definition rproduct (l : list R) : R := fold_right Rmult 1 l.
