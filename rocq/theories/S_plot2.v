(** Specification vocabulary for the diagrams of several sets of coefficients. *)
From Verif Require Import Base M_utils M_sig M_process M_sph0 M_sph M_decoder4 M_plot M_plot2.
Open Scope R_scope.

(** a spherical harmonic of either kind *)
Definition harmonic (k : shtype) (n : nat) (m : Z) (azi zen : R) : C2 :=
  match k with ShComplex => sph_harm m n azi zen | _ => (sh_real n m azi zen, 0) end.
(** the function with coefficients F in ACN order, up to order N *)
Definition function_value (k : shtype) (N : nat) (F : coef) (azi zen : R) : C2 :=
  csum (N + 1) (fun n => csum (2 * n + 1) (fun q => cmul (harmonic k n (Z.of_nat q - Z.of_nat n) azi zen) (nth (n * n + q) (coef_c F) (0, 0)))).
Definition absolute (z : C2) : R := sqrt (fst z ^ 2 + snd z ^ 2).
(** a surface whose distance in every direction of the grid is that function's modulus *)
Definition surface (k : shtype) (N : nat) (F : coef) (azi_steps el_steps : R) (pts : list V3) : Prop :=
  length pts = length (balloon_grid azi_steps el_steps) /\
  forall i, (i < length pts)%nat -> let '(azi, zen) := nth i (balloon_grid azi_steps el_steps) (0, 0) in
    nth i pts (0, 0, 0) = sph2cart azi zen (absolute (function_value k N F azi zen)).
Definition of_order (N : nat) (F : coef) : Prop := length (coef_c F) = ((N + 1) ^ 2)%nat.
(** coordinate k of a point *)
Definition coord (k : nat) (p : V3) : R := match k with O => vx p | 1%nat => vy p | _ => vz p end.
(** the mean of points, coordinate by coordinate *)
Definition mean_of (ps : list V3) (p : V3) : Prop :=
  forall k, coord k p * INR (length ps) = rsum (length ps) (fun i => coord k (nth i ps (0, 0, 0))).
Definition corners (ps : list V3) (f : nat * nat * nat) : list V3 :=
  let '(a, b, c) := f in [nth a ps (0, 0, 0); nth b ps (0, 0, 0); nth c ps (0, 0, 0)].
Definition has_corner (f : nat * nat * nat) (i : nat) : Prop := let '(a, b, c) := f in i = a \/ i = b \/ i = c.
(** the total absolute difference of two flattened arrays *)
Definition distance1 (a b : list R) : R := rsum (length a) (fun i => Rabs (nth i a 0 - nth i b 0)).
