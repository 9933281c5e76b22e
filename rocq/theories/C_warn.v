(** The warning of calculate_grid_weights (C131). *)
From Verif Require Import Base M_utils M_sig M_sph0 M_sph M_grids M_warn S_utils S_sph S_grids S_svd S_order X_sph X_warn.
Open Scope R_scope.

(** ** C131 *)
Theorem C131_order : forall pinv cond N azi zen Y,
  exact_pinv pinv -> (1 <= N)%nat -> length zen = length azi -> zeniths zen -> sh_matrix N azi zen = Ok Y -> left_invertible Y ->
  exists w warned, grid_weights_said pinv cond azi zen (Some (Z.of_nat N)) = Ok (w, warned) /\ exact_for sh_real N azi zen w /\ (warned = true <-> exists x, In x w /\ x < 0).
Proof. exact f_warn_order. Qed.
Print Assumptions C131_order.
Theorem C131_found : forall pinv cond azi zen w warned,
  exact_pinv pinv -> cond_contract cond -> length zen = length azi -> zeniths zen -> (length azi < 100 ^ 2)%nat ->
  grid_weights_said pinv cond azi zen None = Ok (w, warned) -> (warned = true <-> exists x, In x w /\ x < 0).
Proof. exact f_warn_found. Qed.
Print Assumptions C131_found.
Theorem C131_designs : forall pinv cond azi zen N,
  exact_pinv pinv -> (1 <= N)%nat -> exact_for sh_real (2 * N) azi zen (equal_weights (length azi)) ->
  grid_weights_said pinv cond azi zen (Some (Z.of_nat N)) = Ok (equal_weights (length azi), false).
Proof. exact f_warn_designs. Qed.
Print Assumptions C131_designs.
Theorem C131_one_point : forall pinv cond a z N,
  exact_pinv pinv -> (1 <= N)%nat -> 0 <= z <= PI -> grid_weights_said pinv cond [a] [z] (Some (Z.of_nat N)) = Ok ([4 * PI / (INR N + 1) ^ 2], true).
Proof. exact f_warn_point. Qed.
Print Assumptions C131_one_point.
Example C131_nonvacuous : exists pinv cond, exact_pinv pinv /\ cond_contract cond /\ exact_for sh_real (2 * 1) octa_azi octa_zen (equal_weights (length octa_azi)) /\
  (exists Y, sh_matrix 1 octa_azi octa_zen = Ok Y /\ left_invertible Y) /\ grid_weights_said pinv cond [0] [PI / 2] (Some 1%Z) = Ok ([4 * PI / (INR 1 + 1) ^ 2], true).
Proof. exact ex_warn. Qed.
