(** Claims about grids.py: C21-C23, C72. *)
From Verif Require Import Base BaseFacts M_utils M_sig M_sph0 M_sph M_grids S_sph S_grids X_sph P_grids2 P_grids3 P_grids4.
Open Scope R_scope.

(** ** C21 *)
Theorem C21_equal_angle : forall n azi zen w, equal_angle n = (azi, zen, w) ->
  length azi = ((2 * n + 2) * (2 * n + 2))%nat /\ exact_for sh_real (2 * n + 1) azi zen w.
Proof. exact equal_angle_exact. Qed.
Print Assumptions C21_equal_angle.
Theorem C21_gauss : forall leggauss n azi zen w x g, leggauss (n + 1)%nat = (x, g) -> length x = (n + 1)%nat ->
  integrates_powers (2 * n + 1) x g -> gauss leggauss n = (azi, zen, w) ->
  length azi = ((n + 1) * (2 * n + 2))%nat /\ exact_for sh_real (2 * n + 1) azi zen w.
Proof. exact gauss_final. Qed.
Print Assumptions C21_gauss.
Theorem C21_equal_polar_angle : forall n pol w, equal_polar_angle n = (pol, w) ->
  length pol = (2 * n + 1)%nat /\ length w = length pol /\ lsum w = 1 /\
  forall m, (1 <= m <= 2 * n)%nat ->
    rsum (length pol) (fun j => nth j w 0 * cos (INR m * nth j pol 0)) = 0 /\
    rsum (length pol) (fun j => nth j w 0 * sin (INR m * nth j pol 0)) = 0.
Proof. exact polar_exact. Qed.
Print Assumptions C21_equal_polar_angle.
Example C21_nonvacuous : integrates_powers (2 * 1 + 1) [- (1 / sqrt 3); 1 / sqrt 3] [1; 1] /\ degree 2 (-1).
Proof. split; [exact gauss2_example|unfold degree; lia]. Qed.

Theorem C21_equal_angle_points : forall n azi zen w,
  equal_angle n = (azi, zen, w) -> forall i j, (i < 2 * n + 2)%nat -> (j < 2 * n + 2)%nat ->
  nth (i * (2 * n + 2) + j) azi 0 = PI * INR j / (INR n + 1) /\
  nth (i * (2 * n + 2) + j) zen 0 = PI * (2 * INR i + 1) / (4 * (INR n + 1)).
Proof. exact ea_points. Qed.
Print Assumptions C21_equal_angle_points.
Theorem C21_equal_angle_weights : forall n azi zen w,
  equal_angle n = (azi, zen, w) -> forall i j, (i < 2 * n + 2)%nat -> (j < 2 * n + 2)%nat ->
  let t := nth (i * (2 * n + 2) + j) zen 0 in
  nth (i * (2 * n + 2) + j) w 0 = 2 * PI / (INR n + 1) ^ 2 * sin t * rsum (n + 1) (fun l => sin (INR (2 * l + 1) * t) / INR (2 * l + 1)) /\
  0 < nth (i * (2 * n + 2) + j) w 0.
Proof. exact ea_weights. Qed.
Print Assumptions C21_equal_angle_weights.
Theorem C21_gauss_points : forall leggauss n azi zen w x g,
  leggauss (n + 1)%nat = (x, g) -> length x = (n + 1)%nat -> length g = (n + 1)%nat -> gauss leggauss n = (azi, zen, w) ->
  forall i j, (i < n + 1)%nat -> (j < 2 * n + 2)%nat ->
  nth (i * (2 * n + 2) + j) azi 0 = PI * INR j / (INR n + 1) /\
  nth (i * (2 * n + 2) + j) zen 0 = acos (nth i x 0) /\
  nth (i * (2 * n + 2) + j) w 0 = PI / (INR n + 1) * nth i g 0.
Proof. exact gauss_points. Qed.
Print Assumptions C21_gauss_points.
(** ** C22 *)
Theorem C22_n_design_gap : forall tab d,
  (1 <= d <= 124)%Z -> exists r, (d <= r <= d + 13)%Z /\ (r <= 124)%Z /\ load_n_design tab d = Ok (tab r).
Proof. exact n_design_gap. Qed.
Print Assumptions C22_n_design_gap.
Theorem C22_n_design_gap_low : forall tab d,
  (1 <= d <= 90)%Z -> exists r, (d <= r <= d + 1)%Z /\ load_n_design tab d = Ok (tab r).
Proof. exact n_design_gap_low. Qed.
Print Assumptions C22_n_design_gap_low.
Theorem C22_lebedev_gap : forall d r,
  (3 <= d <= 131)%Z -> next_degree lebedev_degrees d r -> (d <= r <= d + 5)%Z /\ ((d <= 31)%Z -> (r <= d + 1)%Z).
Proof. exact lebedev_gap. Qed.
Print Assumptions C22_lebedev_gap.
Theorem C22_gaps_attained : forall tab,
  load_n_design tab 101 = Ok (tab 114%Z) /\ load_n_design tab 115 = Ok (tab 124%Z) /\ next_degree lebedev_degrees 126 131.
Proof. exact gaps_attained. Qed.
Print Assumptions C22_gaps_attained.
Theorem C22_n_design : forall tab d, (1 <= d <= 124)%Z ->
  exists r, next_degree n_design_degrees d r /\ (r <= 124)%Z /\ load_n_design tab d = Ok (tab r).
Proof. exact n_design_next. Qed.
Print Assumptions C22_n_design.
Theorem C22_lebedev : forall tab d, (3 <= d <= 131)%Z ->
  exists r v w, next_degree lebedev_degrees d r /\ (r <= 131)%Z /\ load_lebedev tab d = Ok (v, w) /\
    length v = length (tab r) /\ length w = length (tab r) /\
    forall i, (i < length (tab r))%nat -> nth i v (0, 0, 0) = fst (nth i (tab r) (0, 0, 0, 0)) /\ nth i w 0 = 4 * PI * snd (nth i (tab r) (0, 0, 0, 0)).
Proof. exact lebedev_next. Qed.
Print Assumptions C22_lebedev.
Theorem C22_out_of_range : forall tab tab' d,
  ((d < 1 \/ 124 < d)%Z -> load_n_design tab d = Err ValueError) /\ ((d < 3 \/ 131 < d)%Z -> load_lebedev tab' d = Err ValueError).
Proof. intros. split; intros H; [apply n_design_out|apply lebedev_out]; exact H. Qed.
Print Assumptions C22_out_of_range.
Theorem C22_t_design : forall (tab : list (list V3)) dft d, length tab = 21%nat ->
  ((1 <= d <= 21)%Z -> load_t_design tab d = Ok (nth (Z.to_nat d - 1) tab dft)) /\
  ((d < 1 \/ 21 < d)%Z -> load_t_design tab d = Err ValueError).
Proof. intros tab dft d. exact (t_design_entry tab dft d). Qed.
Print Assumptions C22_t_design.
Theorem C22_Fliege_Maier : forall tab d, length tab = 30%nat ->
  ((2 <= d <= 30)%Z -> exists v w, load_Fliege_Maier_nodes tab d = Ok (v, w) /\ length v = length w /\ combine v w = nth (Z.to_nat d - 1) tab []) /\
  ((d < 2 \/ 30 < d)%Z -> load_Fliege_Maier_nodes tab d = Err ValueError).
Proof. exact fliege_entry. Qed.
Print Assumptions C22_Fliege_Maier.
(** load_maxDet reads a file that is not in the repository: it raises for every degree *)
Theorem C22_maxDet_refuted : forall d, exists e, load_maxDet d = Err e.
Proof. exact maxdet_never. Qed.
Print Assumptions C22_maxDet_refuted.
Example C22_nonvacuous : next_degree n_design_degrees 95 98 /\ next_degree lebedev_degrees 32 35 /\ length (repeat ([] : list V3) 21) = 21%nat.
Proof.
  split; [|split; [|reflexivity]].
  - split; [simpl; tauto|]. split; [lia|]. intros r H L. simpl in H. repeat destruct H as [<-|H]; try lia.
  - split; [simpl; tauto|]. split; [lia|]. intros r H L. simpl in H. repeat destruct H as [<-|H]; try lia.
Qed.

(** ** C23 *)
Theorem C23_weights_exact : forall pinv cond N azi zen Y, (1 <= N)%nat -> length zen = length azi -> zeniths zen ->
  sh_matrix N azi zen = Ok Y -> penrose Y (pinv Y) -> left_invertible Y ->
  exists w, calculate_grid_weights pinv cond azi zen (Some (Z.of_nat N)) = Ok w /\ exact_for sh_real N azi zen w /\
    forall w', exact_for sh_real N azi zen w' -> lsum (map (fun x => x * x) w) <= lsum (map (fun x => x * x) w').
Proof. exact grid_weights_ok. Qed.
Print Assumptions C23_weights_exact.
Theorem C23_bad_arguments : forall pinv cond azi zen o,
  ((o <= 0)%Z -> calculate_grid_weights pinv cond azi zen (Some o) = Err AssertionError) /\
  ((0 < o)%Z -> length zen <> length azi -> length zen <> 1%nat -> calculate_grid_weights pinv cond azi zen (Some o) = Err ValueError).
Proof. intros. split; intros; [apply grid_weights_bad_order|apply grid_weights_mismatch]; auto. Qed.
Print Assumptions C23_bad_arguments.
(** order not given: the last order before the first one whose condition number
    exceeds 2(N+1) is taken; if none of the orders 1..99 does, TypeError *)
Theorem C23_search : forall pinv cond azi zen (K : nat -> R),
  (forall k, (1 <= k)%nat -> check_cond_sht cond k azi zen = Ok (K k)) ->
  (forall N, (N < 99)%nat -> 2 * (INR (N + 1) + 1) < K (N + 1)%nat -> (forall i, (1 <= i <= N)%nat -> K i <= 2 * (INR i + 1)) ->
     calculate_grid_weights pinv cond azi zen None = calculate_grid_weights pinv cond azi zen (Some (Z.of_nat N))) /\
  ((forall i, (1 <= i <= 99)%nat -> K i <= 2 * (INR i + 1)) -> calculate_grid_weights pinv cond azi zen None = Err TypeError).
Proof. exact grid_weights_search. Qed.
Print Assumptions C23_search.
Example C23_nonvacuous : exists Y, sh_matrix 1 octa_azi octa_zen = Ok Y /\ left_invertible Y /\
  penrose Y (Mat (nc Y) (nr Y) (fun i j => 4 * PI / 6 * ent Y j i)).
Proof. exact octa_penrose. Qed.

(** ** C72 *)
Theorem C72_equal_angle : forall n azi zen w F, equal_angle n = (azi, zen, w) -> nr F = ((n + 1) ^ 2)%nat ->
  exists f F', inverse_sht F azi zen None None = Ok f /\ sht f n azi zen (Some w) None = Ok F' /\ meq F' F.
Proof. exact equal_angle_sht. Qed.
Print Assumptions C72_equal_angle.
Theorem C72_gauss : forall leggauss n azi zen w x g F, leggauss (n + 1)%nat = (x, g) -> length x = (n + 1)%nat ->
  integrates_powers (2 * n + 1) x g -> gauss leggauss n = (azi, zen, w) -> nr F = ((n + 1) ^ 2)%nat ->
  exists f F', inverse_sht F azi zen None None = Ok f /\ sht f n azi zen (Some w) None = Ok F' /\ meq F' F.
Proof. exact gauss_sht. Qed.
Print Assumptions C72_gauss.
Example C72_nonvacuous : nr (Mat 9 2 (fun i j => INR (i + j))) = ((2 + 1) ^ 2)%nat /\ integrates_powers (2 * 1 + 1) [- (1 / sqrt 3); 1 / sqrt 3] [1; 1].
Proof. split; [reflexivity|exact gauss2_example]. Qed.
