(** Specifications of the linear-algebra routines the code takes from numpy and
    scipy: what a correct routine returns, not how.  Theorems quantify over every
    routine that meets its contract. *)
From Verif Require Import Base.
Open Scope R_scope.

(** [X] is the two-sided inverse of the square matrix [A] *)
Definition is_inverse (A X : mat) : Prop :=
  nr A = nc A /\ nr X = nr A /\ nc X = nr A /\
  (forall i j, (i < nr A)%nat -> (j < nr A)%nat -> rsum (nr A) (fun k => ent A i k * ent X k j) = delta i j) /\
  (forall i j, (i < nr A)%nat -> (j < nr A)%nat -> rsum (nr A) (fun k => ent X i k * ent A k j) = delta i j).

(** np.linalg.inv: the inverse if there is one, else LinAlgError (a non-square
    array also raises LinAlgError) *)
Definition inv_contract (inv : mat -> res mat) : Prop :=
  forall A, (exists X, inv A = Ok X /\ is_inverse A X) \/
            (inv A = Err LinAlgError /\ forall X, ~ is_inverse A X).
