(** Specifications for the properties of grids.py. *)
From Verif Require Import Base S_sph.
Open Scope R_scope.

(** [P] is the Moore-Penrose inverse of [A] (np.linalg.pinv): the four Penrose
    equations *)
Definition mprod (n : nat) (A B : mat) (i j : nat) : R := rsum n (fun k => ent A i k * ent B k j).
Definition penrose (A P : mat) : Prop :=
  nr P = nc A /\ nc P = nr A /\
  (forall i j, (i < nr A)%nat -> (j < nc A)%nat -> rsum (nr A) (fun k => mprod (nc A) A P i k * ent A k j) = ent A i j) /\
  (forall i j, (i < nc A)%nat -> (j < nr A)%nat -> rsum (nc A) (fun k => mprod (nr A) P A i k * ent P k j) = ent P i j) /\
  (forall i j, (i < nr A)%nat -> (j < nr A)%nat -> mprod (nc A) A P i j = mprod (nc A) A P j i) /\
  (forall i j, (i < nc A)%nat -> (j < nc A)%nat -> mprod (nr A) P A i j = mprod (nr A) P A j i).
(** [A] has a left inverse: full column rank *)
Definition left_invertible (A : mat) : Prop :=
  exists X : mat, forall a b, (a < nc A)%nat -> (b < nc A)%nat -> mprod (nr A) X A a b = delta a b.

(** nodes [x] in [-1,1] and weights [w] integrate every power up to [d] over
    [-1,1] (np.polynomial.legendre.leggauss(k) documents d = 2k - 1) *)
Definition integrates_powers (d : nat) (x w : list R) : Prop :=
  length w = length x /\ (forall y, In y x -> -1 <= y <= 1) /\
  forall k, (k <= d)%nat -> rsum (length x) (fun i => nth i w 0 * nth i x 0 ^ k) = (1 - (-1) ^ (k + 1)) / (INR k + 1).

(** [r] is the smallest degree at least [d] in the table *)
Definition next_degree (has : list Z) (d r : Z) : Prop :=
  In r has /\ (d <= r)%Z /\ forall r', In r' has -> (d <= r')%Z -> (r <= r')%Z.
