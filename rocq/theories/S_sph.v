(** Specifications for the properties of sph.py, written without reference to the
    model. *)
From Verif Require Import Base.
Open Scope R_scope.

(** [m] is a degree of order [n] *)
Definition degree (n : nat) (m : Z) : Prop := (Z.abs m <= Z.of_nat n)%Z.
(** Ambisonic channel number *)
Definition acn (n : nat) (m : Z) : nat := Z.to_nat (Z.of_nat n * Z.of_nat n + Z.of_nat n + m).

(** [g] is the [k]-th derivative of [f] *)
Fixpoint nth_derivative (k : nat) (f g : R -> R) : Prop :=
  match k with
  | O => forall x, g x = f x
  | S j => exists h, nth_derivative j f h /\ forall x, derivable_pt_lim h x (g x)
  end.
(** Legendre's equation, normalised at 1 *)
Definition is_legendre (n : nat) (P : R -> R) : Prop :=
  P 1 = 1 /\ exists P' P'', nth_derivative 1 P P' /\ nth_derivative 1 P' P'' /\
    forall x, (1 - x * x) * P'' x - 2 * x * P' x + INR n * (INR n + 1) * P x = 0.
(** associated Legendre function of degree [m >= 0], without the sign (-1)^m *)
Definition is_assoc_legendre (n m : nat) (A : R -> R) : Prop :=
  exists P D, is_legendre n P /\ nth_derivative m P D /\ forall x, A x = sqrt (1 - x * x) ^ m * D x.
Definition sh_norm (n m : nat) : R :=
  sqrt ((2 * INR n + 1) / (4 * PI) * (INR (fact (n - m)) / INR (fact (n + m)))).

(** identity matrix *)
Definition is_identity (n : nat) (M : mat) : Prop :=
  nr M = n /\ nc M = n /\ forall i j, (i < n)%nat -> (j < n)%nat -> ent M i j = delta i j.
(** [P = c A] entry by entry *)
Definition is_multiple (c : R) (A P : mat) : Prop :=
  nr P = nr A /\ nc P = nc A /\ forall i j, (i < nr A)%nat -> (j < nc A)%nat -> ent P i j = c * ent A i j.

(** no number between squares has an integer root *)
Definition is_square (K : nat) : Prop := exists k, K = (k * k)%nat.
(** directions in the range the code documents *)
Definition zeniths (l : list R) : Prop := forall z, In z l -> 0 <= z <= PI.

(** channels along [axis] of a 2-D array, element [t] of channel [c], number of
    elements per channel *)
Definition chan (axis : nat) (F : mat) : nat := match axis with O => nr F | _ => nc F end.
Definition at_chan (axis : nat) (F : mat) (c t : nat) : R := match axis with O => ent F c t | _ => ent F t c end.
Definition other (axis : nat) (F : mat) : nat := match axis with O => nc F | _ => nr F end.

(** quadrature weights [w] on the directions integrate the functions [Y n m],
    1 <= n <= t, to zero and 1 to the sphere area: what makes a grid "exact up to
    order t" for orthonormal harmonics [Y] *)
Definition exact_for (Y : nat -> Z -> R -> R -> R) (t : nat) (azi zen w : list R) : Prop :=
  length zen = length azi /\ length w = length azi /\ zeniths zen /\ lsum w = 4 * PI /\
  forall n m, (1 <= n <= t)%nat -> degree n m ->
    rsum (length azi) (fun j => nth j w 0 * Y n m (nth j azi 0) (nth j zen 0)) = 0.
(** equal weights, as t-designs have *)
Definition equal_weights (Q : nat) : list R := repeat (4 * PI / INR Q) Q.

(** the harmonics in the columns of [Y] are orthonormal under the weights [w] *)
Definition orthonormal_on (Y : mat) (w : list R) : Prop :=
  forall a b, (a < nc Y)%nat -> (b < nc Y)%nat ->
    rsum (nr Y) (fun j => nth j w 0 * (ent Y j a * ent Y j b)) = delta a b.
(** Y^T Y = J / (4 pi) I *)
Definition sector_grid (Y : mat) (J : nat) : Prop :=
  forall a b, (a < nc Y)%nat -> (b < nc Y)%nat -> rsum J (fun j => ent Y j a * ent Y j b) = INR J / (4 * PI) * delta a b.
(** value at a direction of the function with coefficients [a] in the basis [Y],
    ACN order *)
Definition field_value (Y : nat -> Z -> R -> R -> R) (N : nat) (a : list R) (azi zen : R) : R :=
  rsum (N + 1) (fun n => rsum (2 * n + 1) (fun k => nth (n * n + k) a 0 * Y n (Z.of_nat k - Z.of_nat n)%Z azi zen)).

(** convex combinations of points *)
Definition convex_comb (p : list V3) (v : V3) : Prop :=
  exists lam : list R, length lam = length p /\ (forall x, In x lam -> 0 <= x) /\ lsum lam = 1 /\
    v = (rsum (length p) (fun i => nth i lam 0 * vx (nth i p (0, 0, 0))),
         rsum (length p) (fun i => nth i lam 0 * vy (nth i p (0, 0, 0))),
         rsum (length p) (fun i => nth i lam 0 * vz (nth i p (0, 0, 0)))).

(** the pattern with modal weights [c] has response 1 at angle 0 *)
Definition unit_response (c : list R) : Prop :=
  rsum (length c) (fun n => (2 * INR n + 1) / (4 * PI) * nth n c 0) = 1.
(** least squares: the normal equations hold for every column (np.linalg.lstsq);
    rows must match *)
Definition lstsq_contract (lstsq : mat -> mat -> res mat) : Prop :=
  forall A B, (nr A = nr B -> exists X, lstsq A B = Ok X /\ nr X = nc A /\ nc X = nc B /\
      forall i j, (i < nc A)%nat -> (j < nc B)%nat ->
        rsum (nr A) (fun q => ent A q i * (rsum (nc A) (fun k => ent A q k * ent X k j) - ent B q j)) = 0) /\
    (nr A <> nr B -> lstsq A B = Err LinAlgError).
