(** Model of the warning of grids.calculate_grid_weights. *)
From Verif Require Import Base M_utils M_sig M_sph0 M_sph M_grids.
Open Scope R_scope.

(** grids.py:56 when the warning is given *)
Definition weights_warn (w : list R) : bool :=
  orb (Rltb (1 / 100) (Rabs (lsum w - 4 * PI))) (existsb (fun x => Rltb x 0) w).
(** grids.py:22-58 calculate_grid_weights: the weights, and whether
    'Could not calculate weights' is warned of (lines 56-57) *)
Definition grid_weights_said (pinv : mat -> mat) (cond : mat -> R) (azi zen : list R) (order : option Z) : res (list R * bool) :=
  let* w := calculate_grid_weights pinv cond azi zen order in
  Ok (w, weights_warn w).
