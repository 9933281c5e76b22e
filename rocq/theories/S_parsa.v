(** Specifications for parsa.py, part 1, written without reference to the model. *)
From Verif Require Import Base.
Open Scope R_scope.

(** output power of the weights [x] under the covariance [S]: x S x^T *)
Definition power (S : mat) (x : list R) : R :=
  rsum (nr S) (fun i => rsum (nr S) (fun j => nth i x 0 * ent S i j * nth j x 0)).
Definition is_symmetric (S : mat) : Prop :=
  nr S = nc S /\ forall i j, (i < nr S)%nat -> (j < nr S)%nat -> ent S i j = ent S j i.
Definition pos_def (S : mat) : Prop :=
  forall x, length x = nr S -> (exists i, (i < nr S)%nat /\ nth i x 0 <> 0) -> 0 < power S x.
Definition pos_semidef (S : mat) : Prop := forall x, length x = nr S -> 0 <= power S x.
Definition neg_semidef (S : mat) : Prop := forall x, length x = nr S -> power S x <= 0.

(** [A] factors through [k] dimensions *)
Definition rank_le (k : nat) (A : mat) : Prop :=
  exists B C : nat -> nat -> R, forall i j, (i < nr A)%nat -> (j < nc A)%nat ->
    ent A i j = rsum k (fun l => B i l * C l j).
(** [P + Q = S], entry by entry, all of the shape of [S] *)
Definition splits (S P Q : mat) : Prop :=
  nr P = nr S /\ nc P = nc S /\ nr Q = nr S /\ nc Q = nc S /\
  forall i j, (i < nr S)%nat -> (j < nc S)%nat -> ent P i j + ent Q i j = ent S i j.

(** np.linalg.eigh on a symmetric matrix: eigenvalues [w] in ascending order,
    the columns of the orthogonal matrix [V] are the eigenvectors, A = V diag(w) V^T *)
Definition ascending (w : list R) : Prop :=
  forall i j, (i <= j < length w)%nat -> nth i w 0 <= nth j w 0.
Definition orthogonal (L : nat) (V : mat) : Prop :=
  nr V = L /\ nc V = L /\
  (forall a b, (a < L)%nat -> (b < L)%nat -> rsum L (fun i => ent V i a * ent V i b) = delta a b) /\
  (forall a b, (a < L)%nat -> (b < L)%nat -> rsum L (fun i => ent V a i * ent V b i) = delta a b).
Definition is_eigh (A : mat) (w : list R) (V : mat) : Prop :=
  nr A = nc A /\ length w = nr A /\ ascending w /\ orthogonal (nr A) V /\
  forall i j, (i < nr A)%nat -> (j < nr A)%nat ->
    ent A i j = rsum (nr A) (fun k => ent V i k * nth k w 0 * ent V j k).

(** row [i] of a matrix as a list *)
Definition mrow (A : mat) (i : nat) : list R := map (ent A i) (seq 0 (nc A)).
Definition inner (n : nat) (x y : nat -> R) : R := rsum n (fun i => x i * y i).

(** mean of squared deviations *)
Definition is_variance (w : list R) (v : R) : Prop :=
  exists m, INR (length w) * m = lsum w /\
            INR (length w) * v = lsum (map (fun x => (x - m) ^ 2) w).
(** eigenvalue [i+1] exceeds [a] times eigenvalue [i] plus the regulariser *)
Definition jump (w : list R) (a : R) (i : nat) : Prop :=
  let d := nth i w 0 + 1 / 10000000 in
  (0 < d /\ a * d < nth (S i) w 0) \/ (d < 0 /\ nth (S i) w 0 < a * d) \/ (d = 0 /\ 0 < nth (S i) w 0).
(** steering vectors of the constraint directions, given by [Y], are independent *)
Definition independent (n L : nat) (Y : nat -> nat -> R) : Prop :=
  forall x : nat -> R, (forall j, (j < L)%nat -> rsum n (fun g => x g * Y g j) = 0) ->
    forall g, (g < n)%nat -> x g = 0.
(** the threshold in use: the argument, or its default 1 + 2/L *)
Definition threshold (w : list R) (a0 : option R) (a : R) : Prop :=
  match a0 with Some x => a = x | None => a = 1 + 2 / INR (length w) end.
(** spatial factor of row [c] of a sector: omni, x, y, z *)
Definition factor (c : nat) (u : V3) : R := match c with O => 1 | 1%nat => vx u | 2%nat => vy u | _ => vz u end.
