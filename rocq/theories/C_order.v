(** The order that calculate_grid_weights finds (C128). *)
From Verif Require Import Base M_utils M_sig M_sph0 M_sph M_grids S_utils S_sph S_grids S_svd S_order X_order X_order2.
Open Scope R_scope.

(** ** C128 *)
Theorem C128_order : forall pinv cond azi zen,
  exact_pinv pinv -> cond_contract cond -> length zen = length azi -> zeniths zen -> (length azi < 100 ^ 2)%nat ->
  exists N, (forall k, (1 <= k <= N)%nat -> supports azi zen k) /\ ~ supports azi zen (N + 1) /\
  (N = 0%nat -> calculate_grid_weights pinv cond azi zen None = Err AssertionError) /\
  ((1 <= N)%nat -> ((N + 1) ^ 2 <= length azi)%nat /\ exists w, calculate_grid_weights pinv cond azi zen None = Ok w /\ exact_for sh_real N azi zen w /\
     forall w', exact_for sh_real N azi zen w' -> lsum (map (fun x => x * x) w) <= lsum (map (fun x => x * x) w')).
Proof. exact f_order. Qed.
Print Assumptions C128_order.
Theorem C128_quadrature : forall pinv cond azi zen N w0 a b,
  exact_pinv pinv -> cond_contract cond -> exact_for sh_real (2 * N) azi zen w0 -> (1 <= N)%nat ->
  0 < a -> b <= 4 * a -> (forall x, In x w0 -> a <= x <= b) -> (length azi < 100 ^ 2)%nat ->
  exists N' w, (N <= N')%nat /\ calculate_grid_weights pinv cond azi zen None = Ok w /\ exact_for sh_real N' azi zen w.
Proof. exact f_order_grids. Qed.
Print Assumptions C128_quadrature.
Theorem C128_designs : forall pinv cond azi zen N,
  exact_pinv pinv -> (1 <= N)%nat -> exact_for sh_real (2 * N) azi zen (equal_weights (length azi)) ->
  calculate_grid_weights pinv cond azi zen (Some (Z.of_nat N)) = Ok (equal_weights (length azi)).
Proof. exact f_order_designs. Qed.
Print Assumptions C128_designs.
Theorem C128_designs_found : forall pinv cond azi zen t w N,
  exact_pinv pinv -> cond_contract cond -> (length azi < 100 ^ 2)%nat ->
  exact_for sh_real t azi zen (equal_weights (length azi)) -> (forall k, (1 <= k <= N)%nat -> supports azi zen k) -> ~ supports azi zen (N + 1) -> (N <= t)%nat ->
  calculate_grid_weights pinv cond azi zen None = Ok w -> w = equal_weights (length azi).
Proof. exact f_order_found_designs. Qed.
Print Assumptions C128_designs_found.
Theorem C128_few_points : forall pinv cond azi zen,
  exact_pinv pinv -> cond_contract cond -> length zen = length azi -> zeniths zen -> (length azi < 4)%nat ->
  calculate_grid_weights pinv cond azi zen None = Err AssertionError.
Proof. exact f_order_few. Qed.
Print Assumptions C128_few_points.
Theorem C128_every_order : forall pinv cond azi zen w0 a b,
  exact_pinv pinv -> cond_contract cond -> exact_for sh_real (2 * 99) azi zen w0 ->
  0 < a -> b <= 4 * a -> (forall x, In x w0 -> a <= x <= b) -> calculate_grid_weights pinv cond azi zen None = Err TypeError.
Proof. exact f_order_type. Qed.
Print Assumptions C128_every_order.
Theorem C128_result_refuted : exists azi zen, length zen = length azi /\ zeniths zen /\
  forall pinv cond, exact_pinv pinv -> cond_contract cond -> calculate_grid_weights pinv cond azi zen None = Err TypeError.
Proof. exact f_order_refuted. Qed.
Print Assumptions C128_result_refuted.
Theorem C128_contract : exists cond, cond_contract cond.
Proof. exact cond_exists. Qed.
Print Assumptions C128_contract.
Example C128_nonvacuous : exists pinv cond azi zen w, exact_pinv pinv /\ cond_contract cond /\ exact_for sh_real (2 * 1) azi zen w /\ (forall x, In x w -> 4 * PI / 6 <= x <= 4 * PI / 6) /\ length azi = 6%nat /\
  exists w' N, (1 <= N)%nat /\ calculate_grid_weights pinv cond azi zen None = Ok w' /\ exact_for sh_real N azi zen w'.
Proof. exact ex_order. Qed.
