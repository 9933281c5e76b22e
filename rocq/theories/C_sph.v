(** The properties of sph.py. *)
From Verif Require Import Base M_utils S_utils P_utils M_sig M_sph0 M_sph S_linalg S_sph P_linalg P_sph9 P_sph10 P_sph11 P_sph12 P_sph13 X_sph.
Open Scope R_scope.

(** ** C11 *)
Theorem C11_rotates_the_field : forall N yaw pitch roll azi zen azi' zen', (1 <= N)%nat ->
  length zen = length azi -> length azi' = length azi -> length zen' = length azi -> zeniths zen -> zeniths zen' ->
  (forall i, (i < length azi)%nat ->
     sph2cart (nth i azi' 0) (nth i zen' 0) 1 = mv3 (rotation_euler yaw pitch roll) (sph2cart (nth i azi 0) (nth i zen 0) 1)) ->
  exists Rm Y Y' P, sh_rotation_matrix N yaw pitch roll ShReal = Ok Rm /\
    sh_matrix N azi zen = Ok Y /\ sh_matrix N azi' zen' = Ok Y' /\ matmul Y (mtr Rm) = Ok P /\ meq P Y'.
Proof. exact rotates_field. Qed.
Print Assumptions C11_rotates_the_field.
Theorem C11_rotate_sh_moves_directions : forall N yaw pitch roll azi zen azi' zen', (1 <= N)%nat ->
  length zen = length azi -> length azi' = length azi -> length zen' = length azi -> zeniths zen -> zeniths zen' ->
  (forall i, (i < length azi)%nat ->
     sph2cart (nth i azi' 0) (nth i zen' 0) 1 = mv3 (rotation_euler yaw pitch roll) (sph2cart (nth i azi 0) (nth i zen 0) 1)) ->
  exists Y Y' G, sh_matrix N azi zen = Ok Y /\ sh_matrix N azi' zen' = Ok Y' /\ rotate_sh Y yaw pitch roll ShReal = Ok G /\ meq G Y'.
Proof. exact rotate_sh_directions. Qed.
Print Assumptions C11_rotate_sh_moves_directions.
Theorem C11_block_diagonal : forall N yaw pitch roll, (1 <= N)%nat ->
  exists Rm bs, sh_rotation_matrix N yaw pitch roll ShReal = Ok Rm /\ sh_rotation_blocks N yaw pitch roll ShReal = Ok bs /\
    nr Rm = ((N + 1) ^ 2)%nat /\ nc Rm = ((N + 1) ^ 2)%nat /\ length bs = (N + 1)%nat /\
    (forall n, (n <= N)%nat -> nr (nth n bs (meye 0)) = (2 * n + 1)%nat /\ nc (nth n bs (meye 0)) = (2 * n + 1)%nat) /\
    (forall n m m', (n <= N)%nat -> degree n m -> degree n m' ->
       ent Rm (acn n m) (acn n m') = ent (nth n bs (meye 0)) (Z.to_nat (m + Z.of_nat n)) (Z.to_nat (m' + Z.of_nat n))) /\
    (forall n m n' m', degree n m -> degree n' m' -> n <> n' -> ent Rm (acn n m) (acn n' m') = 0).
Proof. exact rotation_blocks. Qed.
Print Assumptions C11_block_diagonal.
Theorem C11_rotate_sh_applies_matrix : forall F N yaw pitch roll, (1 <= N)%nat -> nc F = ((N + 1) ^ 2)%nat ->
  exists Rm G, sh_rotation_matrix N yaw pitch roll ShReal = Ok Rm /\ rotate_sh F yaw pitch roll ShReal = Ok G /\
    matmul F (mtr Rm) = Ok G /\ nr G = nr F /\ nc G = nc F.
Proof. exact rotate_sh_ok. Qed.
Print Assumptions C11_rotate_sh_applies_matrix.
Theorem C11_rejects : forall F N yaw pitch roll,
  (~ is_square (nc F) -> rotate_sh F yaw pitch roll ShReal = Err AssertionError) /\
  sh_rotation_matrix N yaw pitch roll ShComplex = Err NotImplementedError /\
  sh_rotation_matrix N yaw pitch roll ShUnknown = Err ValueError /\
  rotate_sh F yaw pitch roll ShComplex = Err NotImplementedError /\
  rotate_sh F yaw pitch roll ShUnknown = Err ValueError.
Proof. intros. split; [apply rotate_sh_nonsquare|apply rotation_types]. Qed.
Print Assumptions C11_rejects.
Theorem C11_order_0_raises : forall yaw pitch roll, sh_rotation_matrix 0 yaw pitch roll ShReal = Err ValueError /\
  forall F, nc F = 1%nat -> rotate_sh F yaw pitch roll ShReal = Err ValueError.
Proof. intros. split; [apply rotate_order0|intros; apply rotate_sh_order0; auto]. Qed.
Print Assumptions C11_order_0_raises.
(** an order-0 signal is a valid signal, but cannot be rotated *)
Theorem C11_every_order_refuted : exists F, nc F = ((0 + 1) ^ 2)%nat /\ rotate_sh F 0 0 0 ShReal = Err ValueError.
Proof. exact order0_refuted. Qed.
Print Assumptions C11_every_order_refuted.
Example C11_nonvacuous : sph2cart (3 - 1) (PI / 2) 1 = mv3 (rotation_euler 1 0 0) (sph2cart 3 (PI / 2) 1) /\
  zeniths [PI / 2].
Proof.
  split.
  - symmetry. apply P_utils.euler_yaw.
  - intros z [<-|[]]. pose proof PI_RGT_0. lra.
Qed.

(** ** C13 *)
Theorem C13_roundtrip : forall F axis N, (axis <= 1)%nat -> chan axis F = ((N + 1) ^ 2)%nat ->
  exists G H G' H', n3d_to_sn3d F axis = Ok G /\ sn3d_to_n3d G axis = Ok H /\ meq H F /\
    sn3d_to_n3d F axis = Ok G' /\ n3d_to_sn3d G' axis = Ok H' /\ meq H' F /\
    forall n m t, (n <= N)%nat -> degree n m ->
      at_chan axis G (acn n m) t = at_chan axis F (acn n m) t / sqrt (2 * INR n + 1) /\
      at_chan axis G' (acn n m) t = at_chan axis F (acn n m) t * sqrt (2 * INR n + 1).
Proof. exact norm_roundtrip. Qed.
Print Assumptions C13_roundtrip.
Theorem C13_non_square : forall F axis, (axis <= 1)%nat -> (5 <= chan axis F)%nat -> ~ is_square (chan axis F) ->
  n3d_to_sn3d F axis = Err ValueError /\ sn3d_to_n3d F axis = Err ValueError.
Proof. intros. split; apply conv_nonsquare; auto. Qed.
Print Assumptions C13_non_square.
(** two and three channels are not an SH signal, yet no error is raised *)
Theorem C13_two_three_channels : forall F axis, (axis <= 1)%nat -> chan axis F = 2%nat \/ chan axis F = 3%nat ->
  exists G H, n3d_to_sn3d F axis = Ok G /\ meq G F /\ sn3d_to_n3d F axis = Ok H /\ meq H F.
Proof. exact conv_partial_identity. Qed.
Print Assumptions C13_two_three_channels.
Example C13_nonvacuous : chan 0 (Mat 9 2 (fun i j => INR i)) = ((2 + 1) ^ 2)%nat /\ degree 2 (-1) /\ acn 2 (-1) = 5%nat /\ ~ is_square 5.
Proof.
  repeat split; try (unfold degree; lia). intros (k & H). assert (k <= 2 \/ 3 <= k)%nat as [L|L] by lia; [|nia].
  destruct k as [|[|[|k]]]; simpl in H; lia.
Qed.

(** ** C14 *)
Theorem C14_roundtrip : forall inv F W, inv_contract inv -> W <> Some 0 -> nr F = 4%nat -> (0 < nc F)%nat ->
  exists B F' H B', sh_to_b F W = Ok B /\ b_to_sh inv B W = Ok F' /\ meq F' F /\
    b_to_sh inv F W = Ok H /\ sh_to_b H W = Ok B' /\ meq B' F.
Proof. exact b_roundtrip. Qed.
Print Assumptions C14_roundtrip.
Theorem C14_zero_weight : forall inv B, inv_contract inv -> b_to_sh inv B (Some 0) = Err LinAlgError.
Proof. exact b_zero. Qed.
Print Assumptions C14_zero_weight.
Theorem C14_plane_wave : forall azi zen sig W, 0 <= zen <= PI -> (0 < length sig)%nat ->
  exists F B, src_to_sh (Mat 1 (length sig) (fun _ t => nth t sig 0)) [azi] [zen] 1 = Ok F /\ sh_to_b F W = Ok B /\
    nr B = 4%nat /\ nc B = length sig /\
    (forall t, let v := sph2cart azi zen 1 in
       ent B 0 t = match W with Some w => w | None => 1 end * nth t sig 0 /\ ent B 1 t = vx v * nth t sig 0 /\
       ent B 2 t = vy v * nth t sig 0 /\ ent B 3 t = vz v * nth t sig 0) /\
    (W = Some 1 \/ W = None -> meq B (src_to_b sig [azi] [zen])).
Proof.
  intros azi zen sig W H1 H2. destruct (plane_wave_b azi zen sig W H1 H2) as (F & B & E1 & E2 & R & C & HE & HM).
  exists F, B. split; auto. split; auto. split; auto. split; auto. split; [exact HE|intros [-> | ->]; apply HM; reflexivity].
Qed.
Print Assumptions C14_plane_wave.
Example C14_nonvacuous : (exists inv, inv_contract inv) /\ Some (1 / 2) <> Some 0.
Proof. split; [exact inv_exists|intros H; injection H; lra]. Qed.

(** ** C15 *)
Theorem C15_sht_inverts_inverse_sht : forall N azi zen w Y F, sh_matrix N azi zen = Ok Y -> nr Y = length azi ->
  nc Y = ((N + 1) ^ 2)%nat -> length w = length azi -> orthonormal_on Y w -> nr F = ((N + 1) ^ 2)%nat ->
  exists f F', inverse_sht F azi zen None None = Ok f /\ sht f N azi zen (Some w) None = Ok F' /\ meq F' F.
Proof. exact sht_inverts. Qed.
Print Assumptions C15_sht_inverts_inverse_sht.
Theorem C15_default_weights : forall N azi zen Y F, sh_matrix N azi zen = Ok Y -> nr Y = length azi ->
  nc Y = ((N + 1) ^ 2)%nat -> orthonormal_on Y (equal_weights (length azi)) -> nr F = ((N + 1) ^ 2)%nat ->
  exists f F', inverse_sht F azi zen None None = Ok f /\ sht f N azi zen None None = Ok F' /\ meq F' F.
Proof. exact sht_inverts_default. Qed.
Print Assumptions C15_default_weights.
(** every grid that is exact to degree 2N qualifies *)
Theorem C15_exact_grids : forall N azi zen w F, exact_for sh_real (2 * N) azi zen w -> nr F = ((N + 1) ^ 2)%nat ->
  exists f F', inverse_sht F azi zen None None = Ok f /\ sht f N azi zen (Some w) None = Ok F' /\ meq F' F.
Proof. exact sht_exact. Qed.
Print Assumptions C15_exact_grids.
Theorem C15_designs : forall N azi zen F, exact_for sh_real (2 * N) azi zen (equal_weights (length azi)) -> nr F = ((N + 1) ^ 2)%nat ->
  exists f F', inverse_sht F azi zen None None = Ok f /\ sht f N azi zen None None = Ok F' /\ meq F' F.
Proof. exact sht_exact_default. Qed.
Print Assumptions C15_designs.
Theorem C15_linear : forall f g N azi zen w a b Ff Fg, nr f = nr g -> nc f = nc g ->
  sht f N azi zen w None = Ok Ff -> sht g N azi zen w None = Ok Fg ->
  exists F, sht (Mat (nr f) (nc f) (fun i j => a * ent f i j + b * ent g i j)) N azi zen w None = Ok F /\
    nr F = nr Ff /\ nc F = nc Ff /\ forall i j, ent F i j = a * ent Ff i j + b * ent Fg i j.
Proof. exact sht_linear. Qed.
Print Assumptions C15_linear.
Theorem C15_surplus_ignored : forall F G N azi zen, length zen = length azi ->
  ((N + 1) ^ 2 <= nr F)%nat -> ((N + 1) ^ 2 <= nr G)%nat -> nc F = nc G ->
  (forall i j, (i < (N + 1) ^ 2)%nat -> (j < nc F)%nat -> ent F i j = ent G i j) ->
  exists f g, inverse_sht F azi zen (Some N) None = Ok f /\ inverse_sht G azi zen (Some N) None = Ok g /\ meq f g.
Proof. exact inverse_sht_surplus. Qed.
Print Assumptions C15_surplus_ignored.
Theorem C15_too_few : forall F N azi zen, length zen = length azi -> (nr F < (N + 1) ^ 2)%nat ->
  inverse_sht F azi zen (Some N) None = Err ValueError.
Proof. exact inverse_sht_too_few. Qed.
Print Assumptions C15_too_few.
Example C15_nonvacuous : exact_for sh_real (2 * 1) octa_azi octa_zen (equal_weights (length octa_azi)).
Proof. exact octa_grid. Qed.

(** ** C16 *)
Theorem C16_perfect_reconstruction : forall pinv N azi zen c Y, length zen = length azi -> zeniths zen -> (0 < length azi)%nat ->
  sh_matrix N azi zen = Ok Y -> sector_grid Y (length azi) -> length c = (N + 1)%nat -> (forall x, In x c -> x <> 0) ->
  exists A B, design_sph_filterbank pinv N azi zen c MPerfect = Ok (Some (A, B)) /\
    (exists P, matmul B A = Ok P /\ is_identity ((N + 1) ^ 2) P) /\
    forall X, nr X = ((N + 1) ^ 2)%nat -> exists S X', matmul A X = Ok S /\ nr S = length azi /\ matmul B S = Ok X' /\ meq X' X.
Proof. exact fb_perfect_signal. Qed.
Print Assumptions C16_perfect_reconstruction.
Theorem C16_energy_multiple : forall pinv N azi zen c Y, length zen = length azi -> zeniths zen -> (0 < length azi)%nat ->
  sh_matrix N azi zen = Ok Y -> sector_grid Y (length azi) -> length c = (N + 1)%nat -> (forall x, In x c -> x <> 0) ->
  exists A B P, design_sph_filterbank pinv N azi zen c MEnergy = Ok (Some (A, B)) /\
    nr A = length azi /\ nc A = ((N + 1) ^ 2)%nat /\ nr B = ((N + 1) ^ 2)%nat /\ nc B = length azi /\
    matmul B A = Ok P /\
    is_multiple (nth 0 c 0 * sqrt (INR (length azi)) / sqrt (rsum (N + 1) (fun n => (2 * INR n + 1) * (nth n c 0 * nth n c 0)))) (meye ((N + 1) ^ 2)) P.
Proof. exact fb_energy. Qed.
Print Assumptions C16_energy_multiple.
Theorem C16_designs_qualify : forall N azi zen, (0 < length azi)%nat -> exact_for sh_real (2 * N) azi zen (equal_weights (length azi)) ->
  exists Y, sh_matrix N azi zen = Ok Y /\ sector_grid Y (length azi).
Proof. exact exact_sector. Qed.
Print Assumptions C16_designs_qualify.
Theorem C16_other_modes_rejected : forall pinv N azi zen c Y, sh_matrix N azi zen = Ok Y -> length c = (N + 1)%nat -> nc Y = ((N + 1) ^ 2)%nat ->
  forall m, m = MAmplitude \/ m = MOther -> design_sph_filterbank pinv N azi zen c m = Err ValueError.
Proof. exact fb_mode_error. Qed.
Print Assumptions C16_other_modes_rejected.
Example C16_nonvacuous : exact_for sh_real (2 * 1) octa_azi octa_zen (equal_weights (length octa_azi)) /\
  length [1; 1 / 2] = (1 + 1)%nat /\ forall x, In x [1; 1 / 2] -> x <> 0.
Proof. split; [exact octa_grid|]. split; auto. intros x [<-|[<-|[]]]; lra. Qed.

(** ** C17 *)
Theorem C17_addition_theorem : forall N d w, length w = (N + 1)%nat -> exists v, bandlimited_dirac N d (Some w) = Ok v /\ length v = length d /\
  forall i a1 z1 a2 z2, (i < length d)%nat -> 0 <= z1 <= PI -> 0 <= z2 <= PI ->
    dot3 (sph2cart a1 z1 1) (sph2cart a2 z2 1) = cos (nth i d 0) ->
    nth i v 0 = rsum (N + 1) (fun n => nth n w 0 * rsum (2 * n + 1) (fun k =>
                  sh_real n (Z.of_nat k - Z.of_nat n) a1 z1 * sh_real n (Z.of_nat k - Z.of_nat n) a2 z2)).
Proof. exact dirac_final. Qed.
Print Assumptions C17_addition_theorem.
Theorem C17_peak : forall N d w, length w = (N + 1)%nat -> exists v, bandlimited_dirac N d (Some w) = Ok v /\ length v = length d /\
  (forall i, (i < length d)%nat -> nth i d 0 = 0 -> nth i v 0 = rsum (N + 1) (fun n => nth n w 0 * (2 * INR n + 1) / (4 * PI))) /\
  ((forall x, In x w -> 0 <= x) -> forall i, (i < length d)%nat ->
     Rabs (nth i v 0) <= rsum (N + 1) (fun n => nth n w 0 * (2 * INR n + 1) / (4 * PI))).
Proof. exact dirac_peak. Qed.
Print Assumptions C17_peak.
Theorem C17_default_weights : forall N d, bandlimited_dirac N d None = bandlimited_dirac N d (Some (repeat 1 (N + 1))).
Proof. exact dirac_default. Qed.
Print Assumptions C17_default_weights.
Theorem C17_wrong_weights : forall N d w, length w <> (N + 1)%nat -> bandlimited_dirac N d (Some w) = Err AssertionError.
Proof. exact dirac_wrong. Qed.
Print Assumptions C17_wrong_weights.
Example C17_nonvacuous : dot3 (sph2cart 0 (PI / 2) 1) (sph2cart (PI / 2) (PI / 2) 1) = cos (PI / 2).
Proof. unfold sph2cart, dot3, vx, vy, vz. simpl. rewrite cos_PI2, sin_PI2, cos_0, sin_0. ring. Qed.

(** ** C18 *)
Theorem C18_repeat_per_order : forall c, length (repeat_per_order c) = (length c ^ 2)%nat /\
  forall n m, (n < length c)%nat -> degree n m -> nth_error (repeat_per_order c) (acn n m) = nth_error c n.
Proof. exact rpo_layout. Qed.
Print Assumptions C18_repeat_per_order.
Theorem C18_sh_matrix_columns : forall N azi zen, length zen = length azi ->
  exists Y, sh_matrix N azi zen = Ok Y /\ nr Y = length azi /\ nc Y = ((N + 1) ^ 2)%nat /\
    forall i n m, (i < length azi)%nat -> (n <= N)%nat -> degree n m ->
      ent Y i (acn n m) = sh_real n m (nth i azi 0) (nth i zen 0).
Proof. exact sh_layout. Qed.
Print Assumptions C18_sh_matrix_columns.
Theorem C18_acn_bijective : forall N,
  (forall j, (j < (N + 1) ^ 2)%nat -> exists n m, (n <= N)%nat /\ degree n m /\ acn n m = j) /\
  (forall n m, (n <= N)%nat -> degree n m -> (acn n m < (N + 1) ^ 2)%nat) /\
  (forall n m n' m', degree n m -> degree n' m' -> acn n m = acn n' m' -> n = n' /\ m = m').
Proof. exact acn_bijective. Qed.
Print Assumptions C18_acn_bijective.
Example C18_nonvacuous : degree 3 (-2) /\ acn 3 (-2) = 10%nat.
Proof. split; [unfold degree; lia|reflexivity]. Qed.

(** ** C19 *)
Theorem C19_convex_combination : forall p g, length p = length g -> (exists x, In x g /\ x <> 0) ->
  exists v, r_E_row p g = (Some v, norm3 v) /\ convex_comb p v /\
    (forall rho, (forall u, In u p -> norm3 u <= rho) -> norm3 v <= rho) /\
    (forall k, k <> 0 -> r_E_row p (map (Rmult k) g) = (Some v, norm3 v)).
Proof. exact rE_final. Qed.
Print Assumptions C19_convex_combination.
Theorem C19_silent_row : forall p g, (forall x, In x g -> x = 0) -> r_E_row p g = (None, 0).
Proof. exact rE_zero. Qed.
Print Assumptions C19_silent_row.
Theorem C19_rows : forall p g cols, (length p = cols -> r_E p g cols = Ok (map (r_E_row p) g)) /\
  (length p <> cols -> r_E p g cols = Err AssertionError).
Proof. intros. split; [apply rE_rows|apply rE_mismatch]. Qed.
Print Assumptions C19_rows.
Example C19_nonvacuous : length octahedron = length [1; 0; 2; 0; 0; 0] /\ (exists x, In x [1; 0; 2; 0; 0; 0] /\ x <> 0).
Proof. split; auto. exists 2. simpl. split; auto; lra. Qed.

(** ** C20 *)
Theorem C20_first_order_field : forall wv xv yv zv W, let n := length wv in (0 < n)%nat ->
  exists B, soundfield_to_b (Mat 4 n (fun j t => let u := nth j tetrahedron (0, 0, 0) in
      nth t wv 0 + nth t xv 0 * vx u + nth t yv 0 * vy u + nth t zv 0 * vz u)) W = Ok B /\
    nr B = 4%nat /\ nc B = n /\
    forall t, ent B 0 t = 4 * PI * match W with Some w => w | None => 1 end * nth t wv 0 /\ ent B 1 t = 4 * PI / 3 * nth t xv 0 /\
      ent B 2 t = 4 * PI / 3 * nth t yv 0 /\ ent B 3 t = 4 * PI / 3 * nth t zv 0.
Proof. exact soundfield_exact. Qed.
Print Assumptions C20_first_order_field.
Example C20_nonvacuous : (0 < length [1; 2; 3])%nat.
Proof. simpl. lia. Qed.

(** ** C67 *)
Theorem C67_real_harmonics : forall n m, degree n m -> exists A, is_assoc_legendre n (Z.abs_nat m) A /\
  forall azi zen, sh_real n m azi zen = sh_norm n (Z.abs_nat m) * A (cos zen) *
    (if (m =? 0)%Z then 1 else if (m <? 0)%Z then sqrt 2 * sin (INR (Z.abs_nat m) * azi)
     else sqrt 2 * cos (INR (Z.abs_nat m) * azi)).
Proof. exact sh_documented. Qed.
Print Assumptions C67_real_harmonics.
Theorem C67_complex_harmonics : forall n m, degree n m -> exists A, is_assoc_legendre n (Z.abs_nat m) A /\
  forall azi zen, sph_harm m n azi zen =
    let s := if (m <? 0)%Z then 1 else (-1) ^ Z.abs_nat m in
    (s * (sh_norm n (Z.abs_nat m) * A (cos zen)) * cos (IZR m * azi), s * (sh_norm n (Z.abs_nat m) * A (cos zen)) * sin (IZR m * azi)).
Proof. exact sph_harm_documented. Qed.
Print Assumptions C67_complex_harmonics.
Example C67_nonvacuous : degree 4 (-3) /\ degree 0 0.
Proof. unfold degree; split; lia. Qed.

(** ** C68 *)
Theorem C68_orthogonal : forall N yaw pitch roll, (1 <= N)%nat -> exists Rm P,
  sh_rotation_matrix N yaw pitch roll ShReal = Ok Rm /\ matmul (mtr Rm) Rm = Ok P /\ is_identity ((N + 1) ^ 2) P.
Proof. exact rotation_orthogonal. Qed.
Print Assumptions C68_orthogonal.
Theorem C68_composition : forall N y1 p1 r1 y2 p2 r2 y3 p3 r3, (1 <= N)%nat ->
  rotation_euler y3 p3 r3 = mm3 (rotation_euler y1 p1 r1) (rotation_euler y2 p2 r2) ->
  exists R1 R2 R3 P, sh_rotation_matrix N y1 p1 r1 ShReal = Ok R1 /\ sh_rotation_matrix N y2 p2 r2 ShReal = Ok R2 /\
    sh_rotation_matrix N y3 p3 r3 ShReal = Ok R3 /\ matmul R1 R2 = Ok P /\ meq P R3.
Proof. exact rotation_compose. Qed.
Print Assumptions C68_composition.
Example C68_nonvacuous : rotation_euler (1 + 2) 0 0 = mm3 (rotation_euler 1 0 0) (rotation_euler 2 0 0).
Proof.
  destruct (P_utils.euler_axes (1 + 2)) as (-> & _). destruct (P_utils.euler_axes 1) as (-> & _). destruct (P_utils.euler_axes 2) as (-> & _).
  unfold rot_Rz, mm3, mv3, dot3, tr3, vx, vy, vz. simpl. rewrite cos_plus, sin_plus. repeat match goal with |- (_, _) = (_, _) => apply f_equal2 end; ring.
Qed.

(** ** C69 *)
Theorem C69_least_squares : forall lstsq N azi zen Y F (Z : nat -> nat -> R), lstsq_contract lstsq -> sh_matrix N azi zen = Ok Y ->
  nc Y = ((N + 1) ^ 2)%nat -> nr F = ((N + 1) ^ 2)%nat ->
  (forall a b, (a < nc Y)%nat -> (b < nc Y)%nat -> rsum (nr Y) (fun q => Z a q * ent Y q b) = delta a b) ->
  exists f F', inverse_sht F azi zen None None = Ok f /\ sht_lstsq lstsq f N azi zen None = Ok F' /\ meq F' F.
Proof. exact sht_lstsq_recovers. Qed.
Print Assumptions C69_least_squares.
Example C69_nonvacuous : (exists lstsq, lstsq_contract lstsq) /\
  exists Y, sh_matrix 1 octa_azi octa_zen = Ok Y /\
   forall a b, (a < nc Y)%nat -> (b < nc Y)%nat -> rsum (nr Y) (fun q => 4 * PI / 6 * ent Y q a * ent Y q b) = delta a b.
Proof.
  split; [exact lstsq_exists|]. destruct (gram_grid 1 octa_azi octa_zen _ octa_grid) as (Y & E & R & C & O_). exists Y. split; auto.
  intros a b Ha Hb. rewrite <- (O_ a b Ha Hb), R. unfold equal_weights. simpl. field. 
Qed.

(** ** C70 *)
Theorem C70_product_of_functions : forall t_design N1 N2 a b v, let N := (N1 + N2)%nat in
  let azi := map (fun u => fst (vec2dir u)) v in
  let zen := map (fun u => match snd (vec2dir u) with Some z => z | None => 0 end) v in
  length a = ((N1 + 1) ^ 2)%nat -> length b = ((N2 + 1) ^ 2)%nat ->
  t_design (2 * Z.of_nat N)%Z = Ok v -> (forall u, In u v -> dot3 u u = 1) ->
  exact_for sh_real (2 * N) azi zen (equal_weights (length v)) ->
  exists c, sh_mult t_design a b = Ok c /\ length c = ((N + 1) ^ 2)%nat /\
    forall az ze, 0 <= ze <= PI -> field_value sh_real N c az ze = field_value sh_real N1 a az ze * field_value sh_real N2 b az ze.
Proof. exact sh_mult_product. Qed.
Print Assumptions C70_product_of_functions.
Example C70_nonvacuous : length [1; 2; 3; 4] = ((1 + 1) ^ 2)%nat /\ length [5] = ((0 + 1) ^ 2)%nat /\
  (forall u, In u octahedron -> dot3 u u = 1) /\
  exact_for sh_real (2 * (1 + 0)) (map (fun u => fst (vec2dir u)) octahedron)
    (map (fun u => match snd (vec2dir u) with Some z => z | None => 0 end) octahedron) (equal_weights (length octahedron)).
Proof. split; auto. split; auto. exact octa_vec2dir. Qed.

(** ** C71 *)
Theorem C71_projection : forall x y z, project_on_sphere x y z =
  if Req_EM_T (dot3 (x, y, z) (x, y, z)) 0 then None else Some (unit3 (x, y, z)).
Proof. exact project_spec. Qed.
Print Assumptions C71_projection.
Example C71_nonvacuous : dot3 (1, 2, 2) (1, 2, 2) <> 0.
Proof. unfold dot3, vx, vy, vz; simpl; lra. Qed.
