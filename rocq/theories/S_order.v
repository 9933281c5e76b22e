(** Specification vocabulary: condition numbers, and the order a grid supports. *)
From Verif Require Import Base M_sph S_sph.
Open Scope R_scope.

(** [A x], and the squared length of the first [n] entries *)
Definition act (A : mat) (x : nat -> R) (i : nat) : R := rsum (nc A) (fun j => ent A i j * x j).
Definition sumsq (n : nat) (x : nat -> R) : R := rsum n (fun i => x i * x i).
(** only zero is mapped to zero *)
Definition regular (A : mat) : Prop :=
  forall x, (forall i, (i < nr A)%nat -> act A x i = 0) -> forall j, (j < nc A)%nat -> x j = 0.
(** the factors |A x| / |x| differ by at most [K] *)
Definition amplifies_within (A : mat) (K : R) : Prop :=
  0 <= K /\ forall x y, sumsq (nr A) (act A x) * sumsq (nc A) y <= K ^ 2 * (sumsq (nr A) (act A y) * sumsq (nc A) x).
(** np.linalg.cond of square arrays: the least such [K]; for singular ones infinity
    or a huge number, here anything above 200 *)
Definition cond_contract (cond : mat -> R) : Prop :=
  forall A, nr A = nc A -> (0 < nc A)%nat ->
    (regular A -> amplifies_within A (cond A) /\ forall K, amplifies_within A K -> cond A <= K) /\
    (~ regular A -> 200 < cond A).
(** Y^T Y *)
Definition gram (Y : mat) : mat := Mat (nc Y) (nc Y) (fun a b => rsum (nr Y) (fun q => ent Y q a * ent Y q b)).
(** the grid supports order [k]: the transform can be inverted, and its gains differ
    by at most 2 (k + 1) *)
Definition supports (azi zen : list R) (k : nat) : Prop :=
  exists Y, sh_matrix k azi zen = Ok Y /\ regular (gram Y) /\ amplifies_within (gram Y) (2 * (INR k + 1)).
