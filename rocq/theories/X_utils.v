(** Final forms and examples for C_utils.v. *)
From Verif Require Import Base BaseFacts M_utils S_utils P_utils P_utils2.
Open Scope R_scope.

Lemma PI_gt_3 : 3 < PI.
Proof. pose proof PI2_3_2. lra. Qed.

Lemma C01_example : (1, -1, 2) <> (0, 0, 0) /\ - PI < 1 <= PI /\ 0 < 1 < PI.
Proof. pose proof PI_gt_3. split; [intros [= H1 H2]; lra|lra]. Qed.

Lemma haversine_angle azi1 zen1 azi2 zen2 r :
  let u := dir2cart azi1 zen1 in
  let v := dir2cart azi2 zen2 in
  exists th, is_angle th u v /\ angle_between u v None = Some th /\
             haversine azi1 zen1 azi2 zen2 r = Some (r * th).
Proof.
  cbn zeta. exists (acos (dot3 (dir2cart azi1 zen1) (dir2cart azi2 zen2))).
  split; [|split].
  - split; [apply acos_bound|]. rewrite !dir2cart_norm, cos_acos; [ring|].
    apply unit_dot_bound; apply dir2cart_unit.
  - apply angle_between_unit; apply dir2cart_norm.
  - apply haversine_acos.
Qed.

Lemma haversine_metric a1 z1 a2 z2 a3 z3 r : 0 <= r ->
  exists d12 d23 d13,
    haversine a1 z1 a2 z2 r = Some d12 /\ haversine a2 z2 a1 z1 r = Some d12 /\
    haversine a2 z2 a3 z3 r = Some d23 /\ haversine a1 z1 a3 z3 r = Some d13 /\
    0 <= d12 <= PI * r /\ d13 <= d12 + d23 /\
    (0 < r -> (d12 = 0 <-> dir2cart a1 z1 = dir2cart a2 z2)).
Proof.
  intros Hr. rewrite !haversine_acos. do 3 eexists. split; [reflexivity|].
  split; [rewrite dot3_comm; reflexivity|]. split; [reflexivity|]. split; [reflexivity|].
  pose proof (dir2cart_unit a1 z1) as U1. pose proof (dir2cart_unit a2 z2) as U2.
  pose proof (dir2cart_unit a3 z3) as U3.
  set (u := dir2cart a1 z1) in *. set (v := dir2cart a2 z2) in *. set (w := dir2cart a3 z3) in *.
  pose proof (acos_bound (dot3 u v)) as HB.
  split; [nra|]. split.
  - pose proof (unit_triangle u v w U1 U2 U3). nra.
  - intros Hp. split.
    + intros E. apply Rmult_integral in E. destruct E as [E|E]; [lra|].
      apply acos_0_iff in E; [|apply unit_dot_bound; auto]. apply unit_dot_1; auto.
    + intros ->. rewrite U2, acos_1. ring.
Qed.

Lemma C02_example : dir2cart 0 (PI / 2) = (1, 0, 0) /\ haversine 0 0 0 PI 1 = Some PI.
Proof.
  split.
  - unfold dir2cart. rewrite cos_0, sin_0, cos_PI2, sin_PI2. pairs; ring.
  - rewrite haversine_acos. unfold dir2cart. rewrite cos_0, sin_0, cos_PI, sin_PI.
    v3. f_equal. rewrite Rmult_1_l. apply acos_unique; [pose proof PI_RGT_0; lra|].
    rewrite cos_PI. ring.
Qed.

Lemma euler_meaning yaw pitch roll :
  (forall v, mv3 (rotation_euler yaw pitch roll) v =
     mv3 (rotation_euler yaw 0 0) (mv3 (rotation_euler 0 pitch 0) (mv3 (rotation_euler 0 0 roll) v))) /\
  (forall azi zen r, mv3 (rotation_euler yaw 0 0) (sph2cart azi zen r) = sph2cart (azi - yaw) zen r) /\
  (forall zen, mv3 (rotation_euler 0 pitch 0) (sph2cart 0 zen 1) = sph2cart 0 (zen - pitch) 1) /\
  (forall zen, mv3 (rotation_euler 0 0 roll) (sph2cart (PI / 2) zen 1) = sph2cart (PI / 2) (zen + roll) 1) /\
  (forall t, mv3 (rotation_euler 0 pitch 0) (0, t, 0) = (0, t, 0)) /\
  (forall t, mv3 (rotation_euler 0 0 roll) (t, 0, 0) = (t, 0, 0)).
Proof.
  split; [apply euler_compose|]. split; [apply euler_yaw|].
  split; [intros; apply euler_pitch|]. split; [intros; apply euler_roll|].
  split; [apply (euler_pitch pitch 0)|apply (euler_roll roll 0)].
Qed.

Lemma C03_example : mv3 (rotation_euler (PI / 2) 0 0) (1, 0, 0) = (0, -1, 0).
Proof.
  destruct (euler_axes (PI / 2)) as (-> & _ & _). unfold rot_Rz. rewrite cos_PI2, sin_PI2.
  v3. pairs; ring.
Qed.

Lemma scal3_turn_fixed k th : k <> (0,0,0) -> turned (unit3 k) th k = k.
Proof.
  intros Hk. pose proof (turned_unit_axis (unit3 k) th (norm3_unit k Hk)) as H.
  assert (E : k = scal3 (norm3 k) (unit3 k)).
  { unfold unit3. apply norm3_pos in Hk. destruct k as [[a b] c].
    set (n := norm3 (a, b, c)) in *. clearbody n. v3. pairs; field; lra. }
  set (n := norm3 k) in *. set (u := unit3 k) in *. clearbody n u. rewrite E.
  transitivity (scal3 n (turned u th u)); [|rewrite H; reflexivity].
  unfold turned. destruct u as [[a b] c]. v3. pairs; ring.
Qed.

Lemma rodrigues_full k theta :
  k <> (0, 0, 0) -> 10 * / 10 ^ 10 < theta ->
  exists m, rotation_rodrigues k theta = Some m /\ is_rotation m /\
    (forall v, mv3 m v = turned (unit3 k) theta v) /\
    mv3 m k = k.
Proof.
  intros Hk Ht. destruct (rodrigues_some k theta Hk) as [m Hm]. exists m.
  split; auto. split; [eapply rodrigues_rotation; eauto|].
  pose proof (rodrigues_turned k theta m Hk Ht Hm) as E. split; auto.
  rewrite E. apply scal3_turn_fixed. auto.
Qed.

Lemma eps10_lt_1 : 10 * / 10 ^ 10 < 1.
Proof. rewrite eps10_val. lra. Qed.
Lemma eps15_lt_1 : 10 * / 10 ^ 15 < 1.
Proof. rewrite eps15_val. lra. Qed.

Lemma C04_example : (0, 3, 4) <> (0, 0, 0) /\ 10 * / 10 ^ 10 < PI / 2.
Proof.
  split; [intros [= H1 H2]; lra|]. pose proof PI_gt_3.
  apply Rlt_trans with 1; [apply eps10_lt_1|lra].
Qed.

Lemma vecvec_same f : f <> (0, 0, 0) -> rotation_vecvec f f = Err ValueError.
Proof.
  intros Hf. destruct (vecvec_cases f f Hf Hf) as [[_ H]|[H _]]; auto. exfalso.
  unfold norm3 in H. set (u := unit3 f) in *. clearbody u.
  replace (dot3 (cross3 u u) (cross3 u u)) with 0 in H by (v3; ring).
  rewrite sqrt_0 in H. pose proof eps15_pos as Hp.
  apply (Rlt_irrefl 0). eapply Rlt_le_trans; eauto.
Qed.

Lemma C05_example : exists m, rotation_vecvec (2, 0, 0) (0, 3, 0) = Ok (Some m).
Proof.
  destruct (vecvec_cases (2, 0, 0) (0, 3, 0)) as [[H _]|[_ (m & H & _)]];
    [intros [= H]; lra|intros [= H]; lra| |eauto].
  exfalso. revert H. apply Rle_not_lt.
  apply Rle_trans with 1; [left; apply eps15_lt_1|].
  unfold unit3. assert (norm3 (2, 0, 0) = 2) as ->.
  { unfold norm3. v3. replace (2 * 2 + 0 * 0 + 0 * 0) with (2 * 2) by ring. apply sqrt_square. lra. }
  assert (norm3 (0, 3, 0) = 3) as ->.
  { unfold norm3. v3. replace (0 * 0 + 3 * 3 + 0 * 0) with (3 * 3) by ring. apply sqrt_square. lra. }
  unfold norm3. v3. right. symmetry.
  etransitivity; [|apply sqrt_1]. f_equal. field.
Qed.

Lemma deg_rad_full (d r : R) (k : Z) :
  0 <= deg2rad d < 2 * PI /\ 0 <= rad2deg r < 360 /\
  congr (2 * PI) (deg2rad d) (d / 180 * PI) /\ congr 360 (rad2deg r) (r / PI * 180) /\
  congr 360 (rad2deg (deg2rad d)) d /\ congr (2 * PI) (deg2rad (rad2deg r)) r /\
  (0 <= d < 360 -> rad2deg (deg2rad d) = d) /\
  (0 <= r < 2 * PI -> deg2rad (rad2deg r) = r) /\
  deg2rad (d + 360 * IZR k) = deg2rad d /\ rad2deg (r + 2 * PI * IZR k) = rad2deg r.
Proof.
  pose proof PI_RGT_0.
  split; [apply deg2rad_range|]. split; [apply rad2deg_range|].
  split; [apply deg2rad_congr|]. split; [apply rad2deg_congr|].
  rewrite rad2deg_deg2rad, deg2rad_rad2deg.
  split; [apply pymod_congr; lra|]. split; [apply pymod_congr; lra|].
  split; [intros; apply pymod_id; lra|]. split; [intros; apply pymod_id; lra|].
  split; [apply deg2rad_periodic|apply rad2deg_periodic].
Qed.

Lemma C06_example : deg2rad 450 = PI / 2.
Proof.
  replace 450 with (90 + 360 * IZR 1) by lra. rewrite deg2rad_periodic.
  unfold deg2rad. rewrite pymod_id by lra. field.
Qed.

Lemma from_db_db_full x power : x <> 0 ->
  exists d, db x power = Some d /\ from_db d power = Rabs x.
Proof.
  intros H. destruct (db_nonzero x power H) as [d Hd]. exists d. split; auto.
  apply from_db_db. auto.
Qed.

Lemma db_value x power : x <> 0 -> exists d, db x power = Some d /\ Rpower 10 (d / (if power then 10 else 20)) = Rabs x /\ (power = true -> db x false = Some (2 * d)).
Proof.
  intros H. destruct (from_db_db_full x power H) as (d & E & F). exists d. split; auto. split; [exact F|]. intros ->. revert E. unfold db. destruct (Reqb (Rabs x) 0); [discriminate|]. intros [= <-]. f_equal. lra.
Qed.

Lemma db_from_db_full d power :
  0 < from_db d power /\ db (from_db d power) power = Some d.
Proof. split; [apply from_db_pos|apply db_from_db]. Qed.

Lemma db_laws x y power : x <> 0 -> y <> 0 ->
  exists dx dy, db x power = Some dx /\ db y power = Some dy /\
    db (x * y) power = Some (dx + dy) /\
    db (x / y) power = Some (dx - dy) /\ db (y / x) power = Some (dy - dx) /\
    (dx < dy <-> Rabs x < Rabs y) /\ db 0 power = None.
Proof.
  intros Hx Hy. destruct (db_nonzero x power Hx) as [dx Ex]. destruct (db_nonzero y power Hy) as [dy Ey].
  exists dx, dy. split; auto. split; auto. split; [apply db_mult; auto|].
  assert (Hxy : x / y <> 0).
  { unfold Rdiv. apply Rmult_integral_contrapositive_currified; auto. apply Rinv_neq_0_compat; auto. }
  destruct (db_nonzero (x / y) power Hxy) as [q Eq].
  pose proof (db_mult _ _ _ _ _ Eq Ey) as E. replace (x / y * y) with x in E by (field; auto).
  assert (q = dx - dy) as -> by (rewrite Ex in E; injection E; lra).
  split; auto. split.
  { replace (dy - dx) with (- (dx - dy)) by ring. apply db_swap; auto. }
  split; [|apply db_zero]. split.
  - intros H. destruct (Rtotal_order (Rabs x) (Rabs y)) as [L|[L|L]]; auto.
    + unfold db in Ex, Ey. rewrite L in Ex. rewrite Ex in Ey. injection Ey; lra.
    + pose proof (db_monotone _ _ _ _ _ Ey Ex L). lra.
  - apply db_monotone with power; auto.
Qed.

Lemma C07_example : db 10 false = Some 20 /\ db (-10) true = Some 10.
Proof.
  pose proof ln10_pos.
  unfold db. rewrite (Rabs_left (-10)), (Rabs_pos_eq 10) by lra.
  replace (- -10) with 10 by lra.
  replace (Reqb 10 0) with false by (symmetry; apply Reqb_false; lra).
  unfold log10. split; f_equal; field; lra.
Qed.

Lemma C08_example :
  interleave_channels (Arr2 [[1; 2]; [3; 4]]%nat 2) (Arr2 [[5; 6]; [7; 8]]%nat 2) StyleNone
  = Ok (Arr2 [[1; 2]; [5; 6]; [3; 4]; [7; 8]]%nat 2).
Proof. reflexivity. Qed.

Lemma C09_example :
  stack (Nd [1; 2]%nat [1; 2]%nat) (Nd [1; 2]%nat [3; 4]%nat) = Ok (Nd [2; 2]%nat [1; 2; 3; 4]%nat) /\
  stack (Nd [2; 1]%nat [1; 2]%nat) (Nd [2; 1]%nat [3; 4]%nat) = Ok (Nd [2; 2]%nat [1; 3; 2; 4]%nat) /\
  stack (Nd [2; 3]%nat (repeat 0%nat 6)) (Nd [2; 4]%nat (repeat 0%nat 8)) = Err ValueError.
Proof. split; [|split]; reflexivity. Qed.

Lemma stack_shared_dim : exists (a b : nd nat) m n1 n2,
  nd_wf a /\ nd_wf b /\ shape a = [m; n1] /\ shape b = [m; n2] /\
  stack a b = Err ValueError.
Proof.
  exists (Nd [2; 3]%nat (repeat 0%nat 6)), (Nd [2; 4]%nat (repeat 0%nat 8)), 2%nat, 3%nat, 4%nat.
  repeat split.
Qed.

Lemma C10_example :
  asarray_1d (Nd [1; 3; 1]%nat [7; 8; 9]%nat) = Ok (Nd [3]%nat [7; 8; 9]%nat) /\
  asarray_1d (Nd [2; 1; 2]%nat [7; 8; 9; 1]%nat) = Err ValueError.
Proof. split; reflexivity. Qed.
