(** Rotation of signals, B-format, transforms. *)
From Verif Require Import Base BaseFacts M_utils S_utils P_utils M_sig P_sig M_sph0 M_sph S_linalg S_sph
  P_sph1 P_sph2 P_sph3 P_sph4 P_sph5 P_sph6 P_sph7 P_sph8 P_sph9.
Open Scope R_scope.

Lemma zeniths_nth l i : zeniths l -> (i < length l)%nat -> 0 <= sin (nth i l 0).
Proof. intros H Hi. apply sin_nonneg. apply H. apply nth_In; auto. Qed.

(** ** rotation *)
Theorem rotates_field N yaw pitch roll azi zen azi' zen' : (1 <= N)%nat ->
  length zen = length azi -> length azi' = length azi -> length zen' = length azi ->
  zeniths zen -> zeniths zen' ->
  (forall i, (i < length azi)%nat -> sph2cart (nth i azi' 0) (nth i zen' 0) 1 =
     mv3 (rotation_euler yaw pitch roll) (sph2cart (nth i azi 0) (nth i zen 0) 1)) ->
  exists Rm Y Y' P, sh_rotation_matrix N yaw pitch roll ShReal = Ok Rm /\ sh_matrix N azi zen = Ok Y /\
    sh_matrix N azi' zen' = Ok Y' /\ matmul Y (mtr Rm) = Ok P /\ meq P Y'.
Proof.
  intros HN L1 L2 L3 Z1 Z2 ED.
  destruct (rotation_matrix_ok N yaw pitch roll HN) as (Rm & ER & RR & RC & _ & _).
  destruct (sh_matrix_ok N azi zen L1) as (Y & EY & Yr & Yc & HY).
  destruct (sh_matrix_ok N azi' zen' ltac:(lia)) as (Y' & EY' & Yr' & Yc' & HY').
  exists Rm, Y, Y'. rewrite matmul_ok by (cbn [nr mtr]; congruence). eexists. split; [auto|]. split; [auto|]. split; [auto|].
  split; [reflexivity|]. split; [cbn [nr]; congruence|]. split; [cbn [nc mtr]; congruence|]. cbn [nr nc ent mtr].
  intros i j Hi Hj. rewrite Yr in Hi. rewrite RR in Hj. destruct (acn_decomp N j Hj) as (n & k & Hn & Hk & ->).
  rewrite HY' by (auto; lia). rewrite (rotation_of_matrix N yaw pitch roll Rm (nth i azi 0) (nth i zen 0)); auto.
  - rewrite Yc. apply rsum_ext. intros q Hq. destruct (acn_decomp N q Hq) as (n' & k' & Hn' & Hk' & ->).
    rewrite acn_nth, HY by auto. reflexivity.
  - apply zeniths_nth; auto; lia.
  - apply zeniths_nth; auto; lia.
Qed.

Lemma rotate_sh_ok F N yaw pitch roll : (1 <= N)%nat -> nc F = ((N + 1) ^ 2)%nat ->
  exists Rm G, sh_rotation_matrix N yaw pitch roll ShReal = Ok Rm /\ rotate_sh F yaw pitch roll ShReal = Ok G /\
    matmul F (mtr Rm) = Ok G /\ nr G = nr F /\ nc G = nc F.
Proof.
  intros HN HK. destruct (rotation_matrix_ok N yaw pitch roll HN) as (Rm & ER & RR & RC & _ & _).
  unfold rotate_sh. cbn [check_real bind].
  assert (ES : sqrt (INR (nc F)) - 1 = INR N) by (rewrite HK, sqrt_INR_sq; ring). rewrite ES.
  assert (EI : Int_part (INR N) = Z.of_nat N) by (apply int_part_unique; rewrite <- INR_IZR_INZ; lra).
  rewrite EI, <- INR_IZR_INZ. rewrite (proj2 (Reqb_true _ _) eq_refl). cbn [assert_ bind].
  assert (EP : py_int (INR N) = Z.of_nat N).
  { unfold py_int. replace (Rleb 0 (INR N)) with true by (symmetry; apply Rleb_true; apply pos_INR). auto. }
  pose proof (sq_ge1 N) as G1. destruct (nc F) as [|K] eqn:EK; [lia|]. rewrite EP, Nat2Z.id, ER. cbn [bind].
  exists Rm. rewrite matmul_ok by (cbn [nr mtr]; congruence). eexists. split; [auto|]. split; [reflexivity|]. split; [reflexivity|].
  cbn [nr nc mtr]. split; congruence.
Qed.
Lemma rotate_sh_nonsquare F yaw pitch roll : ~ is_square (nc F) -> rotate_sh F yaw pitch roll ShReal = Err AssertionError.
Proof.
  intros H. unfold rotate_sh. cbn [check_real bind]. pose proof (sqrt_nat (nc F)) as [A B].
  assert (EI : Int_part (sqrt (INR (nc F)) - 1) = (Z.of_nat (Nat.sqrt (nc F)) - 1)%Z).
  { apply int_part_unique. rewrite minus_IZR, <- INR_IZR_INZ. lra. }
  rewrite EI, minus_IZR, <- INR_IZR_INZ.
  replace (Reqb _ _) with false; [reflexivity|]. symmetry. apply Reqb_false. intros E. apply H.
  exists (Nat.sqrt (nc F)). apply INR_eq. rewrite mult_INR. assert (E2 : sqrt (INR (nc F)) = INR (Nat.sqrt (nc F))) by lra.
  rewrite <- E2. symmetry. apply sqrt_sqrt. apply pos_INR.
Qed.
Lemma rotate_order0 yaw pitch roll : sh_rotation_matrix 0 yaw pitch roll ShReal = Err ValueError.
Proof. reflexivity. Qed.
Lemma rotate_sh_order0 F yaw pitch roll : nc F = 1%nat -> rotate_sh F yaw pitch roll ShReal = Err ValueError.
Proof.
  intros HK. unfold rotate_sh. cbn [check_real bind]. rewrite HK. simpl INR. rewrite sqrt_1.
  replace (1 - 1) with 0 by ring. assert (EI : Int_part 0 = 0%Z) by (apply int_part_unique; lra). rewrite EI.
  rewrite (proj2 (Reqb_true 0 0) eq_refl). cbn [assert_ bind].
  assert (EP : py_int 0 = 0%Z) by (unfold py_int; replace (Rleb 0 0) with true by (symmetry; apply Rleb_true; lra); auto).
  rewrite EP. reflexivity.
Qed.
Lemma rotation_types N yaw pitch roll F :
  sh_rotation_matrix N yaw pitch roll ShComplex = Err NotImplementedError /\
  sh_rotation_matrix N yaw pitch roll ShUnknown = Err ValueError /\
  rotate_sh F yaw pitch roll ShComplex = Err NotImplementedError /\
  rotate_sh F yaw pitch roll ShUnknown = Err ValueError.
Proof. repeat split. Qed.
Lemma rotation_blocks N yaw pitch roll : (1 <= N)%nat ->
  exists Rm bs, sh_rotation_matrix N yaw pitch roll ShReal = Ok Rm /\ sh_rotation_blocks N yaw pitch roll ShReal = Ok bs /\
    nr Rm = ((N + 1) ^ 2)%nat /\ nc Rm = ((N + 1) ^ 2)%nat /\ length bs = (N + 1)%nat /\
    (forall n, (n <= N)%nat -> nr (nth n bs (meye 0)) = (2 * n + 1)%nat /\ nc (nth n bs (meye 0)) = (2 * n + 1)%nat) /\
    (forall n m m', (n <= N)%nat -> degree n m -> degree n m' ->
       ent Rm (acn n m) (acn n m') = ent (nth n bs (meye 0)) (Z.to_nat (m + Z.of_nat n)) (Z.to_nat (m' + Z.of_nat n))) /\
    (forall n m n' m', degree n m -> degree n' m' -> n <> n' -> ent Rm (acn n m) (acn n' m') = 0).
Proof.
  intros HN. set (M := rotation_euler yaw pitch roll).
  destruct (rot_blocks_ok M N (euler_ortho yaw pitch roll) HN) as (bs & E & Hl & HB).
  destruct (rotation_matrix_ok N yaw pitch roll HN) as (Rm' & ER' & RR' & RC' & _ & HO').
  exists Rm', bs. unfold sh_rotation_matrix, sh_rotation_blocks in *. cbn [check_real bind] in *. fold M in ER' |- *. rewrite E in *. cbn [bind] in *.
  destruct (block_diag_ok ((N + 1) ^ 2) 0 bs (Mat ((N + 1) ^ 2) ((N + 1) ^ 2) (fun _ _ => 0)) eq_refl eq_refl) as (Rm & ER & RR & RC & HD & HO).
  - intros i Hi. destruct (HB i ltac:(lia)) as (A & B & _). auto.
  - rewrite Hl, sq2. simpl. lia.
  - simpl (0 * 0)%nat in ER. rewrite ER in ER'. injection ER' as <-. split; [auto|]. split; [auto|]. split; [auto|]. split; [auto|].
    split; [lia|]. split; [intros n Hn; destruct (HB n Hn) as (A & B & _); auto|]. split.
    + intros n m m' Hn Hd Hd'. destruct (acn_eq n m Hd) as (k & -> & Hk & <-). destruct (acn_eq n m' Hd') as (k' & -> & Hk' & <-).
      pose proof (HD n k k' ltac:(lia) Hk Hk') as X. rewrite !Nat.add_0_l in X. rewrite X. f_equal; lia.
    + intros n m n' m' Hd Hd' D. destruct (acn_eq n m Hd) as (k & -> & Hk & <-). destruct (acn_eq n' m' Hd') as (k' & -> & Hk' & <-).
      apply HO'; auto.
Qed.
(** end to end: rotating the encoded directions is encoding the rotated directions *)
Theorem rotate_sh_directions N yaw pitch roll azi zen azi' zen' : (1 <= N)%nat ->
  length zen = length azi -> length azi' = length azi -> length zen' = length azi ->
  zeniths zen -> zeniths zen' ->
  (forall i, (i < length azi)%nat -> sph2cart (nth i azi' 0) (nth i zen' 0) 1 =
     mv3 (rotation_euler yaw pitch roll) (sph2cart (nth i azi 0) (nth i zen 0) 1)) ->
  exists Y Y' G, sh_matrix N azi zen = Ok Y /\ sh_matrix N azi' zen' = Ok Y' /\
    rotate_sh Y yaw pitch roll ShReal = Ok G /\ meq G Y'.
Proof.
  intros HN L1 L2 L3 Z1 Z2 ED.
  destruct (rotates_field N yaw pitch roll azi zen azi' zen' HN L1 L2 L3 Z1 Z2 ED) as (Rm & Y & Y' & P & ER & EY & EY' & EP & ME).
  exists Y, Y', P. split; auto. split; auto. split; auto.
  destruct (sh_matrix_ok N azi zen L1) as (Y2 & EY2 & _ & Yc & _). rewrite EY in EY2. injection EY2 as <-.
  destruct (rotate_sh_ok Y N yaw pitch roll HN Yc) as (Rm2 & G & ER2 & EG & EM & _). rewrite ER in ER2. injection ER2 as <-. congruence.
Qed.

(** orthogonality and composition *)
Lemma rotation_orthogonal N yaw pitch roll : (1 <= N)%nat ->
  exists Rm P, sh_rotation_matrix N yaw pitch roll ShReal = Ok Rm /\ matmul (mtr Rm) Rm = Ok P /\ is_identity ((N + 1) ^ 2) P.
Proof.
  intros HN. destruct (rotation_matrix_ok N yaw pitch roll HN) as (Rm & ER & RR & RC & _ & _).
  exists Rm. rewrite matmul_ok by reflexivity. eexists. split; [auto|]. split; [reflexivity|].
  split; [cbn [nr mtr]; auto|]. split; [cbn [nc mtr]; auto|]. cbn [nr nc ent mtr]. intros i j Hi Hj. rewrite RR.
  apply (rotation_matrix_orthogonal N yaw pitch roll); auto.
Qed.
Lemma rotation_entries N yaw pitch roll Rm : (1 <= N)%nat -> sh_rotation_matrix N yaw pitch roll ShReal = Ok Rm ->
  nr Rm = ((N + 1) ^ 2)%nat /\ nc Rm = ((N + 1) ^ 2)%nat /\
  (forall n, (n <= N)%nat -> exists B, carries (rotation_euler yaw pitch roll) n B /\
      forall i j, (i < 2 * n + 1)%nat -> (j < 2 * n + 1)%nat ->
           ent Rm (n * n + i) (n * n + j) = B (Z.of_nat i - Z.of_nat n)%Z (Z.of_nat j - Z.of_nat n)%Z) /\
  (forall n n' i j, (i < 2 * n + 1)%nat -> (j < 2 * n' + 1)%nat -> n <> n' -> ent Rm (n * n + i) (n' * n' + j) = 0).
Proof.
  intros HN ER. destruct (rotation_matrix_ok N yaw pitch roll HN) as (Rm2 & ER2 & RR & RC & H & HO).
  rewrite ER in ER2. injection ER2 as <-. split; auto. split; auto. split; auto. intros n Hn. apply (H n 0%nat 0%nat); lia.
Qed.
Lemma rotation_compose N y1 p1 r1 y2 p2 r2 y3 p3 r3 : (1 <= N)%nat ->
  rotation_euler y3 p3 r3 = mm3 (rotation_euler y1 p1 r1) (rotation_euler y2 p2 r2) ->
  exists R1 R2 R3 P, sh_rotation_matrix N y1 p1 r1 ShReal = Ok R1 /\ sh_rotation_matrix N y2 p2 r2 ShReal = Ok R2 /\
    sh_rotation_matrix N y3 p3 r3 ShReal = Ok R3 /\ matmul R1 R2 = Ok P /\ meq P R3.
Proof.
  intros HN EM.
  destruct (rotation_matrix_ok N y1 p1 r1 HN) as (R1 & E1 & _). destruct (rotation_matrix_ok N y2 p2 r2 HN) as (R2 & E2 & _).
  destruct (rotation_matrix_ok N y3 p3 r3 HN) as (R3 & E3 & _).
  destruct (rotation_entries _ _ _ _ _ HN E1) as (A1 & C1 & D1 & O1). destruct (rotation_entries _ _ _ _ _ HN E2) as (A2 & C2 & D2 & O2).
  destruct (rotation_entries _ _ _ _ _ HN E3) as (A3 & C3 & D3 & O3).
  exists R1, R2, R3. rewrite matmul_ok by congruence. eexists. split; auto. split; auto. split; auto. split; [reflexivity|].
  split; [cbn [nr]; congruence|]. split; [cbn [nc]; congruence|]. cbn [nr nc ent]. intros a b Ha Hb. rewrite A1 in Ha. rewrite C2 in Hb. rewrite C1.
  destruct (acn_decomp N a Ha) as (n & i & Hn & Hi & ->). destruct (acn_decomp N b Hb) as (n' & j & Hn' & Hj & ->).
  destruct (Nat.eq_dec n n') as [<-|D].
  - destruct (D1 n Hn) as (B1 & K1 & F1). destruct (D2 n Hn) as (B2 & K2 & F2). destruct (D3 n Hn) as (B3 & K3 & F3).
    rewrite F3 by auto.
    rewrite (acn_sum_block N n _ (fun k => B1 (Z.of_nat i - Z.of_nat n)%Z (Z.of_nat k - Z.of_nat n)%Z * B2 (Z.of_nat k - Z.of_nat n)%Z (Z.of_nat j - Z.of_nat n)%Z)); auto.
    + pose proof (euler_ortho y1 p1 r1) as T1. pose proof (euler_ortho y2 p2 r2) as T2. pose proof (euler_ortho y3 p3 r3) as T3.
      set (p := (Z.of_nat i - Z.of_nat n)%Z).
      assert (X : forall q, (Z.abs q <= Z.of_nat n)%Z -> zs n (fun k => B1 p k * B2 k q) = B3 p q).
      { apply (zs_eq_coeff n (fun q => zs n (fun k => B1 p k * B2 k q)) (fun q => B3 p q)). intros v.
        assert (Hp : (Z.abs p <= Z.of_nat n)%Z) by (unfold p; lia).
        rewrite <- (carries_rotates _ n B3 T3 K3 v p Hp), EM, mv3_mm3, (carries_rotates _ n B1 T1 K1 _ p Hp).
        transitivity (zs n (fun k => zs n (fun q => B1 p k * (B2 k q * Yz n q v)))).
        - rewrite zs_swap. apply zs_ext. intros q Hq. rewrite Rmult_comm, <- zs_scal. apply zs_ext. intros; ring.
        - apply zs_ext. intros k Hk. rewrite zs_scal, <- (carries_rotates _ n B2 T2 K2 v k Hk). reflexivity. }
      rewrite <- (X (Z.of_nat j - Z.of_nat n)%Z ltac:(lia)). reflexivity.
    + intros n2 k Hn2 Hk D. rewrite (O1 n n2) by auto. ring.
    + intros k Hk. rewrite F1, F2 by auto. reflexivity.
  - rewrite O3 by auto. apply rsum_0. intros k Hk. destruct (acn_decomp N k Hk) as (q & r & Hq & Hr & ->).
    destruct (Nat.eq_dec q n) as [->|D'].
    + rewrite (O2 n n') by auto. ring.
    + rewrite (O1 n q) by auto. ring.
Qed.

(** ** B-format *)
Lemma s4 : 0 < sqrt (4 * PI) /\ sqrt (4 * PI) * sqrt (4 * PI) = 4 * PI.
Proof. pose proof PI_RGT_0. split; [apply sqrt_lt_R0; lra|apply sqrt_sqrt; lra]. Qed.
Lemma s3 : 0 < sqrt 3 /\ sqrt 3 * sqrt 3 = 3.
Proof. split; [apply sqrt_lt_R0; lra|apply sqrt_sqrt; lra]. Qed.
Lemma s34 : sqrt (3 / (4 * PI)) = sqrt 3 / sqrt (4 * PI).
Proof. pose proof PI_RGT_0. apply sqrt_div_alt. lra. Qed.

Definition b_inv (W : R) : mat :=
  mscal (/ sqrt (4 * PI)) (mat_of_rows 4 4 [[/ W; 0; 0; 0]; [0; 0; sqrt 3; 0]; [0; 0; 0; sqrt 3]; [0; sqrt 3; 0; 0]]).
Lemma b_inverse W : W <> 0 -> is_inverse (b_mat W) (b_inv W).
Proof.
  intros HW. destruct s4 as [P _]. destruct s3 as [T _].
  split; [reflexivity|]. split; [reflexivity|]. split; [reflexivity|].
  unfold b_mat, b_inv, mscal, mat_of_rows; cbn [nr nc ent].
  split; intros i j Hi Hj;
    (destruct i as [|[|[|[|i]]]]; [| | | |lia]); (destruct j as [|[|[|[|j]]]]; [| | | |lia]);
    unfold delta; simpl; field; repeat split; lra.
Qed.
Lemma b_singular X : ~ is_inverse (b_mat 0) X.
Proof.
  intros (_ & _ & _ & H & _). specialize (H O O). cbn [nr b_mat mscal mat_of_rows] in H.
  specialize (H ltac:(lia) ltac:(lia)). unfold b_mat, mscal, mat_of_rows, delta in H. cbn [ent] in H. simpl in H. lra.
Qed.
Lemma roundtrip_mul A X F n : nr A = n -> nc A = n -> nr X = n -> nc X = n -> nr F = n ->
  (forall i j, (i < n)%nat -> (j < n)%nat -> rsum n (fun k => ent X i k * ent A k j) = delta i j) ->
  exists G H, matmul A F = Ok G /\ matmul X G = Ok H /\ meq H F /\ nc G = nc F /\ nr G = n.
Proof.
  intros A1 A2 X1 X2 F1 HI. rewrite (matmul_ok A F) by congruence.
  set (G := Mat (nr A) (nc F) (fun i j => rsum (nc A) (fun k => ent A i k * ent F k j))).
  exists G. rewrite (matmul_ok X G) by (unfold G; cbn [nr]; congruence). eexists. split; [reflexivity|]. split; [reflexivity|].
  split; [|split; [reflexivity|auto]].
  split; [cbn [nr]; congruence|]. split; [reflexivity|]. cbn [nr nc ent]. intros i j Hi Hj. rewrite X1 in Hi. unfold G; cbn [ent]. rewrite X2, A2.
  rewrite (rsum_ext n _ (fun k => rsum n (fun q => ent X i k * ent A k q * ent F q j))) by (intros; rewrite <- rsum_scal; apply rsum_ext; intros; ring).
  rewrite rsum_swap. rewrite (rsum_ext n _ (fun q => delta i q * ent F q j)).
  - rewrite rsum_delta_l by auto. reflexivity.
  - intros q Hq. rewrite rsum_scal_r, HI by auto. reflexivity.
Qed.

Lemma b_roundtrip inv F W : inv_contract inv -> W <> Some 0 -> nr F = 4%nat -> (0 < nc F)%nat ->
  exists B F' H B', sh_to_b F W = Ok B /\ b_to_sh inv B W = Ok F' /\ meq F' F /\
    b_to_sh inv F W = Ok H /\ sh_to_b H W = Ok B' /\ meq B' F.
Proof.
  intros HI HW HF HC. set (w := w_default W).
  assert (Hw : w <> 0) by (unfold w; destruct W as [x|]; simpl; [congruence|lra]).
  destruct (HI (b_mat w)) as [(X & EX & (S & X1 & X2 & L & R))|(_ & N)]; [|exfalso; apply (N (b_inv w)), b_inverse; auto].
  cbn [nr b_mat mscal mat_of_rows] in *.
  destruct (roundtrip_mul (b_mat w) X F 4) as (B & F' & E1 & E2 & E3 & E4 & E4'); auto.
  destruct (roundtrip_mul X (b_mat w) F 4) as (H & B' & E5 & E6 & E7 & E8 & E8'); auto.
  exists B, F', H, B'. unfold sh_to_b, b_to_sh, apply_columns. fold w. rewrite EX. cbn [bind]. rewrite E4, E8.
  destruct (Nat.eqb_spec (nc F) 0); [lia|]. auto 10.
Qed.
Lemma b_zero inv B : inv_contract inv -> b_to_sh inv B (Some 0) = Err LinAlgError.
Proof.
  intros HI. unfold b_to_sh. cbn [w_default]. destruct (HI (b_mat 0)) as [(X & _ & H)|(E & _)]; [exfalso; eapply b_singular; eauto|].
  rewrite E. reflexivity.
Qed.
Lemma b_entry F W : nr F = 4%nat -> (0 < nc F)%nat -> exists B, sh_to_b F W = Ok B /\ nr B = 4%nat /\ nc B = nc F /\ forall t,
  ent B 0 t = sqrt (4 * PI) * w_default W * ent F 0 t /\
  ent B 1 t = sqrt (4 * PI) / sqrt 3 * ent F 3 t /\
  ent B 2 t = sqrt (4 * PI) / sqrt 3 * ent F 1 t /\
  ent B 3 t = sqrt (4 * PI) / sqrt 3 * ent F 2 t.
Proof.
  intros H1 H2. unfold sh_to_b, apply_columns. destruct (Nat.eqb_spec (nc F) 0); [lia|]. rewrite matmul_ok by auto.
  eexists. split; [reflexivity|]. split; [reflexivity|]. split; [reflexivity|]. intros t. cbn [ent]. unfold b_mat, mscal, mat_of_rows. cbn [ent nc]. simpl.
  unfold Rdiv. repeat split; ring.
Qed.

(** first-order harmonics of a direction *)
Lemma sh1 azi zen : 0 <= sin zen -> let v := sph2cart azi zen 1 in
  sh_real 0 0 azi zen = / sqrt (4 * PI) /\
  sh_real 1 (-1) azi zen = sqrt 3 / sqrt (4 * PI) * vy v /\
  sh_real 1 0 azi zen = sqrt 3 / sqrt (4 * PI) * vz v /\
  sh_real 1 1 azi zen = sqrt 3 / sqrt (4 * PI) * vx v.
Proof.
  intros H v. rewrite !sh_real_Yz, Yz00 by auto. fold v. destruct (Yz1 v) as (A & B & C). rewrite A, B, C, s34. auto.
Qed.
Lemma acn4 N azi zen Y : (1 <= N)%nat -> length zen = length azi -> sh_matrix N azi zen = Ok Y ->
  forall i, (i < length azi)%nat ->
  ent Y i 0 = sh_real 0 0 (nth i azi 0) (nth i zen 0) /\ ent Y i 1 = sh_real 1 (-1) (nth i azi 0) (nth i zen 0) /\
  ent Y i 2 = sh_real 1 0 (nth i azi 0) (nth i zen 0) /\ ent Y i 3 = sh_real 1 1 (nth i azi 0) (nth i zen 0).
Proof.
  intros HN HL E i Hi. destruct (sh_matrix_ok N azi zen HL) as (Y2 & E2 & _ & _ & H). rewrite E in E2. injection E2 as <-.
  split; [apply (H i 0%nat 0%nat); lia|]. split; [apply (H i 1%nat 0%nat); lia|]. split; [apply (H i 1%nat 1%nat); lia|apply (H i 1%nat 2%nat); lia].
Qed.

Lemma plane_wave_b azi zen sig W : 0 <= zen <= PI -> (0 < length sig)%nat ->
  exists F B, src_to_sh (Mat 1 (length sig) (fun _ t => nth t sig 0)) [azi] [zen] 1 = Ok F /\ sh_to_b F W = Ok B /\
    nr B = 4%nat /\ nc B = length sig /\
    (forall t, let v := sph2cart azi zen 1 in
       ent B 0 t = w_default W * nth t sig 0 /\ ent B 1 t = vx v * nth t sig 0 /\
       ent B 2 t = vy v * nth t sig 0 /\ ent B 3 t = vz v * nth t sig 0) /\
    (w_default W = 1 -> meq B (src_to_b sig [azi] [zen])).
Proof.
  intros HZ HL. destruct (sh_matrix_ok 1 [azi] [zen] eq_refl) as (Y & EY & YR & YC & _).
  pose proof (acn4 1 [azi] [zen] Y ltac:(lia) eq_refl EY 0%nat ltac:(simpl; lia)) as (A0 & A1 & A2 & A3). cbn [nth] in *.
  destruct (sh1 azi zen (sin_nonneg zen HZ)) as (B0 & B1 & B2 & B3). set (v := sph2cart azi zen 1) in *.
  unfold src_to_sh. rewrite EY. cbn [bind]. simpl length in YR. rewrite matmul_ok by (cbn [nc mtr nr]; auto).
  set (F := Mat _ _ _). exists F.
  assert (FE : forall k t, ent F k t = ent Y 0 k * nth t sig 0).
  { intros k t. unfold F. cbn [ent nc mtr]. rewrite YR. simpl rsum. ring. }
  destruct (b_entry F W) as (B & EB & R1 & R2 & HB); [unfold F; cbn [nr mtr]; rewrite YC; reflexivity|unfold F; cbn [nc]; auto|].
  destruct s4 as [P4 _]. destruct s3 as [P3 _].
  assert (HV : forall t, ent B 0 t = w_default W * nth t sig 0 /\ ent B 1 t = vx v * nth t sig 0 /\
       ent B 2 t = vy v * nth t sig 0 /\ ent B 3 t = vz v * nth t sig 0).
  { intros t. destruct (HB t) as (H0 & H1 & H2 & H3). rewrite H0, H1, H2, H3, !FE, A0, A1, A2, A3, B0, B1, B2, B3.
    split; [field; lra|]. split; [field; lra|]. split; field; lra. }
  exists B. split; [reflexivity|]. split; [auto|]. split; [auto|]. split; [rewrite R2; reflexivity|]. split; [exact HV|].
  intros HW. split; [rewrite R1; reflexivity|]. split; [rewrite R2; reflexivity|]. intros i t Hi _. rewrite R1 in Hi.
  destruct (HV t) as (H0 & H1 & H2 & H3). unfold src_to_b. cbn [ent combine flat_map app fst snd]. fold v.
  destruct i as [|[|[|[|i]]]]; cbn [nth]; [rewrite H0, HW| | | |lia]; auto.
Qed.

(** ** the four-capsule microphone *)
Lemma tetra_dir v : In v tetrahedron -> exists azi zen r,
  cart2sph (vx v) (vy v) (vz v) false false = (azi, Some zen, r) /\ 0 <= zen <= PI /\ sph2cart azi zen 1 = v.
Proof.
  intros H. destruct s3 as [P3 Q3].
  assert (U : dot3 v v = 1 /\ v <> (0, 0, 0)).
  { assert (I3 : 0 < / sqrt 3) by (apply Rinv_0_lt_compat; auto).
    assert (II : / sqrt 3 * / sqrt 3 = / 3) by (rewrite <- Rinv_mult; f_equal; auto).
    unfold tetrahedron in H. simpl in H. set (q := / sqrt 3) in *. clearbody q.
    destruct H as [<-|[<-|[<-|[<-|[]]]]]; unfold scal3, dot3, vx, vy, vz; cbn [fst snd]; (split; [nra|intros E; injection E; intros; lra]). }
  destruct U as [U NZ].
  assert (EV : v = (vx v, vy v, vz v)) by (destruct v as [[a b] c]; reflexivity).
  destruct (cart_sph_cart (vx v) (vy v) (vz v) false false) as (azi & zen & r & E & S); [rewrite <- EV; auto|discriminate|].
  destruct (cart2sph_ranges _ _ _ _ _ _ _ _ E) as (_ & Hr & Hrr & Hz). exists azi, zen, r. split; auto. split; auto.
  assert (r = 1). { unfold dot3 in U. assert (r * r = 1) by lra. nra. }
  subst r. rewrite S. auto.
Qed.

Lemma soundfield_exact (wv xv yv zv : list R) W : let n := length wv in (0 < n)%nat ->
  exists B, soundfield_to_b (Mat 4 n (fun j t => let u := nth j tetrahedron (0, 0, 0) in
      nth t wv 0 + nth t xv 0 * vx u + nth t yv 0 * vy u + nth t zv 0 * vz u)) W = Ok B /\
    nr B = 4%nat /\ nc B = n /\
    forall t, ent B 0 t = 4 * PI * w_default W * nth t wv 0 /\ ent B 1 t = 4 * PI / 3 * nth t xv 0 /\
              ent B 2 t = 4 * PI / 3 * nth t yv 0 /\ ent B 3 t = 4 * PI / 3 * nth t zv 0.
Proof.
  intros n Hn. unfold soundfield_to_b.
  set (dirs := map _ tetrahedron). set (ta := map _ dirs). set (tz := map _ dirs).
  assert (LT : length tz = length ta) by (unfold tz, ta; rewrite !map_length; auto).
  assert (LA : length ta = 4%nat) by reflexivity.
  assert (DD : forall j, (j < 4)%nat -> 0 <= nth j tz 0 <= PI /\ sph2cart (nth j ta 0) (nth j tz 0) 1 = nth j tetrahedron (0, 0, 0)).
  { intros j Hj. assert (HI : In (nth j tetrahedron (0, 0, 0)) tetrahedron) by (apply nth_In; simpl; auto).
    destruct (tetra_dir _ HI) as (azi & zen & r & E & HZ & S).
    assert (ET : nth j dirs (0, None, 0) = (azi, Some zen, r)).
    { unfold dirs. rewrite (nth_indep _ _ ((fun v => cart2sph (vx v) (vy v) (vz v) false false) (0, 0, 0))) by (rewrite map_length; simpl; auto).
      rewrite (map_nth (fun v => cart2sph (vx v) (vy v) (vz v) false false)). auto. }
    assert (LD : length dirs = 4%nat) by reflexivity.
    assert (E1 : nth j ta 0 = azi).
    { unfold ta. rewrite (nth_map_in _ _ _ _ (0, None, 0)) by (rewrite LD; auto). rewrite ET. reflexivity. }
    assert (E2 : nth j tz 0 = zen).
    { unfold tz. rewrite (nth_map_in _ _ _ _ (0, None, 0)) by (rewrite LD; auto). rewrite ET. reflexivity. }
    rewrite E1, E2. auto. }
  clearbody ta tz. clear dirs.
  destruct (sh_matrix_ok 1 ta tz LT) as (Y & EY & YR & YC & _). rewrite LA in YR.
  assert (YV : forall j, (j < 4)%nat -> let u := nth j tetrahedron (0, 0, 0) in
     ent Y j 0 = / sqrt (4 * PI) /\ ent Y j 1 = sqrt 3 / sqrt (4 * PI) * vy u /\ ent Y j 2 = sqrt 3 / sqrt (4 * PI) * vz u /\ ent Y j 3 = sqrt 3 / sqrt (4 * PI) * vx u).
  { intros j Hj u. destruct (DD j Hj) as [HZ ES]. destruct (acn4 1 ta tz Y ltac:(lia) LT EY j ltac:(lia)) as (A0 & A1 & A2 & A3).
    destruct (sh1 (nth j ta 0) (nth j tz 0) (sin_nonneg _ HZ)) as (B0 & B1 & B2 & B3). rewrite ES in B1, B2, B3. fold u in B1, B2, B3.
    rewrite A0, A1, A2, A3. auto. }
  unfold sht. rewrite EY. cbn [bind]. rewrite matmul_ok by (cbn [nc nr mtr mscal]; auto). cbn [bind]. set (F := Mat _ _ _).
  destruct (b_entry F W) as (B & EB & R1 & R2 & HB); [unfold F; cbn [nr mtr mscal nc]; rewrite YC; reflexivity|unfold F; cbn [nc]; auto|].
  exists B. split; [auto|]. split; [auto|]. split; [rewrite R2; reflexivity|]. intros t. destruct (HB t) as (H0 & H1 & H2 & H3).
  rewrite H0, H1, H2, H3. unfold F. cbn [ent mtr mscal nc nr]. rewrite YR. cbn [rsum].
  destruct (YV 0%nat ltac:(lia)) as (a0 & a1 & a2 & a3). destruct (YV 1%nat ltac:(lia)) as (b0 & b1 & b2 & b3).
  destruct (YV 2%nat ltac:(lia)) as (c0 & c1 & c2 & c3). destruct (YV 3%nat ltac:(lia)) as (d0 & d1 & d2 & d3).
  rewrite a0, a1, a2, a3, b0, b1, b2, b3, c0, c1, c2, c3, d0, d1, d2, d3. unfold tetrahedron. cbn [map nth].
  unfold scal3, vx, vy, vz; cbn [fst snd]. destruct s4 as [P4 Q4]. destruct s3 as [P3 Q3].
  replace (INR 4) with 4 by (simpl; ring).
  set (r := sqrt (4 * PI)) in *. set (q := sqrt 3) in *. clearbody r q. rewrite <- Q4.
  assert (Q3' : 3 = q * q) by auto.
  split; [field; split; lra|]. split; [|split]; rewrite Q3'; field; split; lra.
Qed.
