(** Property theorems for /repo/spaudiopy/utils.py (C01 - C10). *)
From Verif Require Import Base BaseFacts M_utils S_utils P_utils P_utils2 X_utils.
Open Scope R_scope.

(** ** C01 *)
Theorem C01_cart_sph_cart : forall x y z positive_azi steady_zen,
  (x, y, z) <> (0, 0, 0) ->
  (steady_zen = true -> 10 * / 10 ^ 15 <= sqrt (x ^ 2 + y ^ 2 + z ^ 2)) ->
  exists azi zen r,
    cart2sph x y z positive_azi steady_zen = (azi, Some zen, r) /\
    sph2cart azi zen r = (x, y, z).
Proof. exact cart_sph_cart. Qed.
Print Assumptions C01_cart_sph_cart.

Theorem C01_sph_cart_sph : forall azi zen r steady_zen,
  - PI < azi <= PI -> 0 < zen < PI -> 0 < r ->
  (steady_zen = true -> 10 * / 10 ^ 15 <= r) ->
  let '(x, y, z) := sph2cart azi zen r in
  cart2sph x y z false steady_zen = (azi, Some zen, r).
Proof. exact sph_cart_sph. Qed.
Print Assumptions C01_sph_cart_sph.

Theorem C01_ranges : forall x y z positive_azi steady_zen azi zen r,
  cart2sph x y z positive_azi steady_zen = (azi, zen, r) ->
  (if positive_azi then 0 <= azi < 2 * PI else - PI < azi <= PI) /\
  0 <= r /\ r * r = x * x + y * y + z * z /\
  match zen with
  | Some t => 0 <= t <= PI
  | None => steady_zen = false /\ (x, y, z) = (0, 0, 0)
  end.
Proof. exact cart2sph_ranges. Qed.
Print Assumptions C01_ranges.

Theorem C01_dir_functions :
  (forall x y z, cart2dir x y z = fst (cart2sph x y z false false)) /\
  (forall azi zen, dir2cart azi zen = sph2cart azi zen 1) /\
  (forall az el r, matlab_sph2cart az el r = sph2cart az (PI / 2 - el) r).
Proof. exact (conj cart2dir_cart2sph (conj dir2cart_sph2cart matlab_is_sph2cart)). Qed.
Print Assumptions C01_dir_functions.

Example C01_nonvacuous :
  (1, -1, 2) <> (0, 0, 0) /\ - PI < 1 <= PI /\ 0 < 1 < PI.
Proof. exact C01_example. Qed.

(** ** C02 *)
Theorem C02_haversine_is_central_angle : forall azi1 zen1 azi2 zen2 r,
  let u := dir2cart azi1 zen1 in
  let v := dir2cart azi2 zen2 in
  exists th, is_angle th u v /\ angle_between u v None = Some th /\
             haversine azi1 zen1 azi2 zen2 r = Some (r * th).
Proof. exact haversine_angle. Qed.
Print Assumptions C02_haversine_is_central_angle.

Theorem C02_haversine_metric : forall a1 z1 a2 z2 a3 z3 r, 0 <= r ->
  exists d12 d23 d13,
    haversine a1 z1 a2 z2 r = Some d12 /\ haversine a2 z2 a1 z1 r = Some d12 /\
    haversine a2 z2 a3 z3 r = Some d23 /\ haversine a1 z1 a3 z3 r = Some d13 /\
    0 <= d12 <= PI * r /\ d13 <= d12 + d23 /\
    (0 < r -> (d12 = 0 <-> dir2cart a1 z1 = dir2cart a2 z2)).
Proof. exact haversine_metric. Qed.
Print Assumptions C02_haversine_metric.

Theorem C02_angle_between : forall u v vi,
  let o := match vi with Some o => o | None => (0, 0, 0) end in
  u <> o -> v <> o ->
  exists th, angle_between u v vi = Some th /\ is_angle th (sub3 u o) (sub3 v o).
Proof. exact angle_between_spec. Qed.
Print Assumptions C02_angle_between.

Example C02_nonvacuous : dir2cart 0 (PI / 2) = (1, 0, 0) /\ haversine 0 0 0 PI 1 = Some PI.
Proof. exact C02_example. Qed.

(** ** C03 *)
Theorem C03_rotation_euler_is_rotation : forall yaw pitch roll,
  is_rotation (rotation_euler yaw pitch roll).
Proof. exact euler_rotation. Qed.
Print Assumptions C03_rotation_euler_is_rotation.

Theorem C03_rotation_matrix_orthogonal : forall m, is_rotation m ->
  mm3 (tr3 m) m = eye3 /\ mm3 m (tr3 m) = eye3 /\ det3 m = 1.
Proof. exact rotation_orth. Qed.
Print Assumptions C03_rotation_matrix_orthogonal.

Theorem C03_rotation_euler_meaning : forall yaw pitch roll,
  (forall v, mv3 (rotation_euler yaw pitch roll) v =
     mv3 (rotation_euler yaw 0 0) (mv3 (rotation_euler 0 pitch 0) (mv3 (rotation_euler 0 0 roll) v))) /\
  (forall azi zen r, mv3 (rotation_euler yaw 0 0) (sph2cart azi zen r) = sph2cart (azi - yaw) zen r) /\
  (forall zen, mv3 (rotation_euler 0 pitch 0) (sph2cart 0 zen 1) = sph2cart 0 (zen - pitch) 1) /\
  (forall zen, mv3 (rotation_euler 0 0 roll) (sph2cart (PI / 2) zen 1) = sph2cart (PI / 2) (zen + roll) 1) /\
  (forall t, mv3 (rotation_euler 0 pitch 0) (0, t, 0) = (0, t, 0)) /\
  (forall t, mv3 (rotation_euler 0 0 roll) (t, 0, 0) = (t, 0, 0)).
Proof. exact euler_meaning. Qed.
Print Assumptions C03_rotation_euler_meaning.

Example C03_nonvacuous : mv3 (rotation_euler (PI / 2) 0 0) (1, 0, 0) = (0, -1, 0).
Proof. exact C03_example. Qed.

(** ** C04 *)
Theorem C04_rodrigues_turns_about_axis : forall k theta,
  k <> (0, 0, 0) -> 10 * / 10 ^ 10 < theta ->
  exists m, rotation_rodrigues k theta = Some m /\ is_rotation m /\
    (forall v, mv3 m v = turned (unit3 k) theta v) /\
    mv3 m k = k.
Proof. exact rodrigues_full. Qed.
Print Assumptions C04_rodrigues_turns_about_axis.

Theorem C04_rodrigues_small_or_negative_is_identity : forall k theta,
  theta <= 10 * / 10 ^ 10 -> rotation_rodrigues k theta = Some eye3.
Proof. exact rodrigues_small. Qed.
Print Assumptions C04_rodrigues_small_or_negative_is_identity.

Theorem C04_rodrigues_negative_angle_refuted : exists k theta m m',
  k <> (0, 0, 0) /\ rotation_rodrigues k theta = Some m /\
  rotation_rodrigues k (- theta) = Some m' /\
  mv3 m' (mv3 m (1, 0, 0)) <> (1, 0, 0).
Proof. exact rodrigues_neg. Qed.
Print Assumptions C04_rodrigues_negative_angle_refuted.

Example C04_nonvacuous : (0, 3, 4) <> (0, 0, 0) /\ 10 * / 10 ^ 10 < PI / 2.
Proof. exact C04_example. Qed.

(** ** C05 *)
Theorem C05_rotation_vecvec : forall f t,
  f <> (0, 0, 0) -> t <> (0, 0, 0) ->
  let u := unit3 f in let w := unit3 t in
  (norm3 (cross3 u w) < 10 * / 10 ^ 15 /\ rotation_vecvec f t = Err ValueError) \/
  (10 * / 10 ^ 15 <= norm3 (cross3 u w) /\
   exists m, rotation_vecvec f t = Ok (Some m) /\ is_rotation m /\
     (10 * / 10 ^ 10 < acos (dot3 u w) -> mv3 m u = w) /\
     (acos (dot3 u w) <= 10 * / 10 ^ 10 -> m = eye3)).
Proof. exact vecvec_cases. Qed.
Print Assumptions C05_rotation_vecvec.

Theorem C05_rotation_vecvec_accuracy : forall f t m,
  f <> (0, 0, 0) -> t <> (0, 0, 0) -> rotation_vecvec f t = Ok (Some m) ->
  norm3 (sub3 (mv3 m (unit3 f)) (unit3 t)) <= 10 * / 10 ^ 10.
Proof. exact vecvec_close. Qed.
Print Assumptions C05_rotation_vecvec_accuracy.

(** a vector cannot be rotated onto itself: the call raises *)
Theorem C05_rotation_vecvec_same_vector_raises : forall f, f <> (0, 0, 0) ->
  rotation_vecvec f f = Err ValueError.
Proof. exact vecvec_same. Qed.
Print Assumptions C05_rotation_vecvec_same_vector_raises.

Example C05_nonvacuous : exists m, rotation_vecvec (2, 0, 0) (0, 3, 0) = Ok (Some m).
Proof. exact C05_example. Qed.

(** ** C06 *)
Theorem C06_deg_rad : forall d r : R, forall k : Z,
  0 <= deg2rad d < 2 * PI /\ 0 <= rad2deg r < 360 /\
  congr (2 * PI) (deg2rad d) (d / 180 * PI) /\ congr 360 (rad2deg r) (r / PI * 180) /\
  congr 360 (rad2deg (deg2rad d)) d /\ congr (2 * PI) (deg2rad (rad2deg r)) r /\
  (0 <= d < 360 -> rad2deg (deg2rad d) = d) /\
  (0 <= r < 2 * PI -> deg2rad (rad2deg r) = r) /\
  deg2rad (d + 360 * IZR k) = deg2rad d /\ rad2deg (r + 2 * PI * IZR k) = rad2deg r.
Proof. exact deg_rad_full. Qed.
Print Assumptions C06_deg_rad.

Example C06_nonvacuous : deg2rad 450 = PI / 2.
Proof. exact C06_example. Qed.

(** ** C07 *)
Theorem C07_from_db_db : forall x power, x <> 0 ->
  exists d, db x power = Some d /\ from_db d power = Rabs x.
Proof. exact from_db_db_full. Qed.
Print Assumptions C07_from_db_db.

Theorem C07_db_from_db : forall d power,
  0 < from_db d power /\ db (from_db d power) power = Some d.
Proof. exact db_from_db_full. Qed.
Print Assumptions C07_db_from_db.

Theorem C07_db_laws : forall x y power, x <> 0 -> y <> 0 ->
  exists dx dy, db x power = Some dx /\ db y power = Some dy /\
    db (x * y) power = Some (dx + dy) /\
    db (x / y) power = Some (dx - dy) /\ db (y / x) power = Some (dy - dx) /\
    (dx < dy <-> Rabs x < Rabs y) /\ db 0 power = None.
Proof. exact db_laws. Qed.
Print Assumptions C07_db_laws.

Theorem C07_value : forall x power, x <> 0 -> exists d, db x power = Some d /\
  Rpower 10 (d / (if power then 10 else 20)) = Rabs x /\ (power = true -> db x false = Some (2 * d)).
Proof. exact db_value. Qed.
Print Assumptions C07_value.

Example C07_nonvacuous : db 10 false = Some 20 /\ db (-10) true = Some 10.
Proof. exact C07_example. Qed.

(** ** C08 *)
Theorem C08_interleave : forall (A : Type) (l r : arr2 A) st,
  length (rows l) = length (rows r) -> cols l = cols r ->
  (st = StyleSSR -> length (rows l) = 360%nat) ->
  exists o, interleave_channels l r st = Ok o /\ cols o = cols l /\
    length (rows o) = (2 * length (rows l))%nat /\
    forall i, nth_error (rows o) (2 * i) = nth_error (rows l) i /\
              nth_error (rows o) (2 * i + 1) = nth_error (rows r) i.
Proof. exact @interleave_ok. Qed.
Print Assumptions C08_interleave.

Theorem C08_interleave_rejects : forall (A : Type) (l r : arr2 A) st,
  (length (rows l) <> length (rows r) \/ cols l <> cols r \/
   (st = StyleSSR /\ length (rows l) <> 360%nat)) ->
  interleave_channels l r st = Err ValueError.
Proof. exact @interleave_err. Qed.
Print Assumptions C08_interleave_rejects.

Example C08_nonvacuous :
  interleave_channels (Arr2 [[1; 2]; [3; 4]]%nat 2) (Arr2 [[5; 6]; [7; 8]]%nat 2) StyleNone
  = Ok (Arr2 [[1; 2]; [5; 6]; [3; 4]; [7; 8]]%nat 2).
Proof. exact C08_example. Qed.

(** ** C09 *)
Theorem C09_stack_wide : forall (A : Type) (a b : nd A) m n,
  nd_wf a -> nd_wf b -> shape a = [m; n] -> shape b = [m; n] -> (0 < m < n)%nat ->
  exists c, stack a b = Ok c /\ shape c = [2 * m; n]%nat /\
    forall i j, (i < m)%nat -> (j < n)%nat ->
      at2 n (data c) i j = at2 n (data a) i j /\
      at2 n (data c) (m + i) j = at2 n (data b) i j.
Proof. exact @stack_wide. Qed.
Print Assumptions C09_stack_wide.

Theorem C09_stack_tall : forall (A : Type) (a b : nd A) m n,
  nd_wf a -> nd_wf b -> shape a = [m; n] -> shape b = [m; n] -> (0 < n < m)%nat ->
  exists c, stack a b = Ok c /\ shape c = [m; 2 * n]%nat /\
    forall i j, (i < m)%nat -> (j < n)%nat ->
      at2 (2 * n) (data c) i j = at2 n (data a) i j /\
      at2 (2 * n) (data c) i (n + j) = at2 n (data b) i j.
Proof. exact @stack_tall. Qed.
Print Assumptions C09_stack_tall.

(** every other pair of shapes is rejected, even if one dimension is shared *)
Theorem C09_stack_rejects_other_shapes : forall (A : Type) (a b : nd A) m1 n1 m2 n2,
  shape a = [m1; n1] -> shape b = [m2; n2] ->
  (m1, n1) <> (m2, n2) \/ m1 = n1 ->
  stack a b = Err ValueError.
Proof. exact @stack_err. Qed.
Print Assumptions C09_stack_rejects_other_shapes.

(** the docstring promises stacking along the same-sized dimension *)
Theorem C09_stack_shared_dimension_refuted : exists (a b : nd nat) m n1 n2,
  nd_wf a /\ nd_wf b /\ shape a = [m; n1] /\ shape b = [m; n2] /\
  stack a b = Err ValueError.
Proof. exact stack_shared_dim. Qed.
Print Assumptions C09_stack_shared_dimension_refuted.

Theorem C09_stack_vectors : forall (A : Type) (a b : nd A) n,
  nd_wf a -> nd_wf b -> shape a = [n] -> shape b = [n] -> (2 <= n)%nat ->
  stack a b = Ok (Nd [2; n]%nat (data a ++ data b)).
Proof. exact @stack_1d. Qed.
Print Assumptions C09_stack_vectors.

Example C09_nonvacuous :
  stack (Nd [1; 2]%nat [1; 2]%nat) (Nd [1; 2]%nat [3; 4]%nat) = Ok (Nd [2; 2]%nat [1; 2; 3; 4]%nat) /\
  stack (Nd [2; 1]%nat [1; 2]%nat) (Nd [2; 1]%nat [3; 4]%nat) = Ok (Nd [2; 2]%nat [1; 3; 2; 4]%nat) /\
  stack (Nd [2; 3]%nat (repeat 0%nat 6)) (Nd [2; 4]%nat (repeat 0%nat 8)) = Err ValueError.
Proof. exact C09_example. Qed.

(** ** C10 *)
Theorem C10_asarray_1d : forall (A : Type) (a : nd A), nd_wf a ->
  let k := length (filter (fun d => negb (Nat.eqb d 1)) (shape a)) in
  ((k <= 1)%nat /\ asarray_1d a = Ok (Nd [length (data a)] (data a))) \/
  ((1 < k)%nat /\ asarray_1d a = Err ValueError).
Proof. exact @asarray_1d_cases. Qed.
Print Assumptions C10_asarray_1d.

Theorem C10_asarray_1d_idempotent : forall (A : Type) (a b : nd A),
  nd_wf a -> asarray_1d a = Ok b -> asarray_1d b = Ok b.
Proof. exact @asarray_1d_idem. Qed.
Print Assumptions C10_asarray_1d_idempotent.

Example C10_nonvacuous :
  asarray_1d (Nd [1; 3; 1]%nat [7; 8; 9]%nat) = Ok (Nd [3]%nat [7; 8; 9]%nat) /\
  asarray_1d (Nd [2; 1; 2]%nat [7; 8; 9; 1]%nat) = Err ValueError.
Proof. exact C10_example. Qed.
