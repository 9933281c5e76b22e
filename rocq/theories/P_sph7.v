(** ACN indexing, the link between the model's angles and the harmonics on R^3,
    and the rotation theorem for the model. *)
From Verif Require Import Base BaseFacts M_utils S_utils P_utils M_sig M_sph0 M_sph
  P_sph1 P_sph2 P_sph3 P_sph4 P_sph5 P_sph6.
Open Scope R_scope.

(** ** ACN *)
Section Flat.
Context {A : Type} (f : nat -> list A) (LN : forall n, length (f n) = (2 * n + 1)%nat).
Lemma flat_length N : length (flat_map f (seq 0 N)) = (N * N)%nat.
Proof using LN.
  induction N as [|N IH]; [reflexivity|]. rewrite seq_S, flat_map_app, app_length, IH. simpl flat_map.
  rewrite app_nil_r, LN. lia.
Qed.
Lemma flat_nth N n i d : (n < N)%nat -> (i < 2 * n + 1)%nat -> nth (n * n + i) (flat_map f (seq 0 N)) d = nth i (f n) d.
Proof using LN.
  induction N as [|N IH]; intros Hn Hi; [lia|]. rewrite seq_S, flat_map_app.
  destruct (Nat.eq_dec n N) as [->|D].
  - rewrite app_nth2; rewrite flat_length; [|lia]. simpl flat_map. rewrite app_nil_r. f_equal. lia.
  - rewrite app_nth1; [apply IH; lia|]. rewrite flat_length. 
    assert (S n * S n <= N * N)%nat by (apply Nat.mul_le_mono; lia). lia.
Qed.
End Flat.

Lemma sq2 N : ((N + 1) ^ 2 = (N + 1) * (N + 1))%nat. Proof. simpl. lia. Qed.

Lemma acn_length N : length (acn_list N) = ((N + 1) ^ 2)%nat.
Proof. unfold acn_list. rewrite flat_length, sq2; auto. intros n. rewrite map_length, seq_length. reflexivity. Qed.
Lemma acn_nth N n i : (n <= N)%nat -> (i < 2 * n + 1)%nat ->
  nth (n * n + i) (acn_list N) (O, 0%Z) = (n, (Z.of_nat i - Z.of_nat n)%Z).
Proof.
  intros Hn Hi. unfold acn_list. rewrite flat_nth; [|intros; rewrite map_length, seq_length; auto|lia|auto].
  rewrite nth_map_seq by auto. reflexivity.
Qed.
Lemma acn_decomp N j : (j < (N + 1) ^ 2)%nat -> exists n i, (n <= N)%nat /\ (i < 2 * n + 1)%nat /\ j = (n * n + i)%nat.
Proof.
  intros H. rewrite sq2 in H. exists (Nat.sqrt j), (j - Nat.sqrt j * Nat.sqrt j)%nat.
  pose proof (Nat.sqrt_spec j ltac:(lia)) as [A B]. split; [|split]; [|lia|lia].
  destruct (le_lt_dec (Nat.sqrt j) N) as [|G]; auto.
  assert ((N + 1) * (N + 1) <= Nat.sqrt j * Nat.sqrt j)%nat by (apply Nat.mul_le_mono; lia). lia.
Qed.
Lemma acn_uniq n i n' i' : (i < 2 * n + 1)%nat -> (i' < 2 * n' + 1)%nat -> (n * n + i = n' * n' + i')%nat -> n = n' /\ i = i'.
Proof.
  intros H H' E. assert (n = n').
  { destruct (Nat.lt_trichotomy n n') as [L|[L|L]]; auto; exfalso.
    - assert ((n + 1) * (n + 1) <= n' * n')%nat by (apply Nat.mul_le_mono; lia). lia.
    - assert ((n' + 1) * (n' + 1) <= n * n)%nat by (apply Nat.mul_le_mono; lia). lia. }
  subst. lia.
Qed.
Lemma rsum_acn N f : rsum (N * N) f = rsum N (fun n => rsum (2 * n + 1) (fun i => f (n * n + i)%nat)).
Proof.
  induction N as [|N IH]; [reflexivity|]. replace (S N * S N)%nat with (N * N + (2 * N + 1))%nat by lia.
  rewrite rsum_app, IH. reflexivity.
Qed.

(** ** the harmonics of the code *)
Lemma ck_hom m t x y : ck m (t * x) (t * y) = t ^ m * ck m x y /\ sk m (t * x) (t * y) = t ^ m * sk m x y.
Proof.
  induction m as [|m [IC IS]]; [simpl; split; ring|]. rewrite !ck_S, !sk_S, IC, IS. simpl pow. split; ring.
Qed.
Lemma neg1_sq m : (-1) ^ m * (-1) ^ m = 1.
Proof. rewrite <- Rpow_mult_distr. replace (-1 * -1) with 1 by ring. apply pow1. Qed.
Lemma sin_from_cos zen : 0 <= sin zen -> sqrt (1 - cos zen * cos zen) = sin zen.
Proof. intros H. rewrite <- (sqrt_square (sin zen) H). f_equal. pose proof (sin2_cos2 zen) as E. unfold Rsqr in E. lra. Qed.

Lemma unit_dir azi zen : dot3 (sph2cart azi zen 1) (sph2cart azi zen 1) = 1.
Proof.
  unfold sph2cart, dot3, vx, vy, vz; cbn. pose proof (sin2_cos2 zen) as E. pose proof (sin2_cos2 azi) as E'. unfold Rsqr in *.
  transitivity ((sin azi * sin azi + cos azi * cos azi) * (sin zen * sin zen) + cos zen * cos zen); [ring|]. rewrite E'. lra.
Qed.

Lemma harm_c n p azi zen : 0 <= sin zen ->
  sqrt 2 * (-1) ^ p * (nk n p * lpmv p n (cos zen) * cos (INR p * azi)) = tc n p (sph2cart azi zen 1).
Proof.
  intros H. unfold tc, Hc. rewrite unit_dir, lpmv_Q, sin_from_cos by auto.
  unfold sph2cart, vx, vy, vz; cbn [fst snd]. rewrite !Rmult_1_l.
  replace (cos azi * sin zen) with (sin zen * cos azi) by ring. replace (sin azi * sin zen) with (sin zen * sin azi) by ring.
  destruct (ck_hom p (sin zen) (cos azi) (sin azi)) as [E _]. rewrite E. destruct (ck_polar p azi) as [E' _]. rewrite E'.
  transitivity (sqrt 2 * ((-1) ^ p * (-1) ^ p) * nk n p * sin zen ^ p * Q n p (cos zen) 1 * cos (INR p * azi)); [ring|].
  rewrite neg1_sq. ring.
Qed.
Lemma harm_s n p azi zen : 0 <= sin zen ->
  sqrt 2 * (-1) ^ p * (nk n p * lpmv p n (cos zen) * sin (INR p * azi)) = ts n p (sph2cart azi zen 1).
Proof.
  intros H. unfold ts, Hs. rewrite unit_dir, lpmv_Q, sin_from_cos by auto.
  unfold sph2cart, vx, vy, vz; cbn [fst snd]. rewrite !Rmult_1_l.
  replace (cos azi * sin zen) with (sin zen * cos azi) by ring. replace (sin azi * sin zen) with (sin zen * sin azi) by ring.
  destruct (ck_hom p (sin zen) (cos azi) (sin azi)) as [_ E]. rewrite E. destruct (ck_polar p azi) as [_ E']. rewrite E'.
  transitivity (sqrt 2 * ((-1) ^ p * (-1) ^ p) * nk n p * sin zen ^ p * Q n p (cos zen) 1 * sin (INR p * azi)); [ring|].
  rewrite neg1_sq. ring.
Qed.
Theorem sh_real_Yz n m azi zen : 0 <= sin zen -> sh_real n m azi zen = Yz n m (sph2cart azi zen 1).
Proof.
  intros H. pose proof sqrt2_pos as SP. unfold sh_real, Yz. destruct (Z.eqb_spec m 0) as [->|D].
  - rewrite <- harm_c by auto. unfold sph_harm. change (Z.abs_nat 0) with O. change (0 <? 0)%Z with false. cbv iota. cbn [fst].
    unfold nk. simpl pow. field. lra.
  - destruct (Z.ltb_spec m 0) as [L|L].
    + destruct (Z.ltb_spec 0 m); [lia|]. rewrite <- harm_s by auto. unfold sph_harm.
      destruct (Z.ltb_spec (Z.abs m) 0); [lia|]. cbn [snd]. replace (Z.abs_nat (Z.abs m)) with (Z.abs_nat m) by lia. unfold nk. ring.
    + destruct (Z.ltb_spec 0 m); [|lia]. rewrite <- harm_c by auto. unfold sph_harm.
      destruct (Z.ltb_spec (Z.abs m) 0); [lia|]. cbn [fst]. replace (Z.abs_nat (Z.abs m)) with (Z.abs_nat m) by lia. unfold nk. ring.
Qed.
Lemma sin_nonneg zen : 0 <= zen <= PI -> 0 <= sin zen.
Proof. intros [A B]. apply sin_ge_0; auto. Qed.

(** sh_matrix: shape and entries *)
Lemma bc1_eq (l : list R) i k : length l = k -> (i < k)%nat -> bc1 l i = nth i l 0.
Proof. intros H Hi. unfold bc1. destruct l as [|x [|y l]]; auto. simpl in H. assert (i = O) by lia. subst. reflexivity. Qed.
Lemma sh_matrix_ok N azi zen : length zen = length azi ->
  exists Y, sh_matrix N azi zen = Ok Y /\ nr Y = length azi /\ nc Y = ((N + 1) ^ 2)%nat /\
    forall i n k, (i < length azi)%nat -> (n <= N)%nat -> (k < 2 * n + 1)%nat ->
      ent Y i (n * n + k) = sh_real n (Z.of_nat k - Z.of_nat n) (nth i azi 0) (nth i zen 0).
Proof.
  intros H. unfold sh_matrix, dirs_ok. rewrite H, Nat.eqb_refl. cbn [orb]. eexists. split; [reflexivity|].
  cbn [nr nc ent]. split; auto. split; auto. intros i n k Hi Hn Hk. rewrite acn_nth by auto.
  rewrite (bc1_eq zen i (length azi)) by auto. reflexivity.
Qed.

Lemma euler_ortho yaw pitch roll : ortho3 (rotation_euler yaw pitch roll).
Proof.
  assert (H : is_rotation (rotation_euler yaw pitch roll)) by apply euler_rotation.
  destruct (rotation_orth _ H) as (A & B & _). split; auto.
Qed.

(** ** the rotation matrix *)
Lemma rotation_matrix_ok N yaw pitch roll : (1 <= N)%nat ->
  exists Rm, sh_rotation_matrix N yaw pitch roll ShReal = Ok Rm /\ nr Rm = ((N + 1) ^ 2)%nat /\ nc Rm = ((N + 1) ^ 2)%nat /\
    (forall n i j, (n <= N)%nat -> (i < 2 * n + 1)%nat -> (j < 2 * n + 1)%nat ->
       exists B, carries (rotation_euler yaw pitch roll) n B /\
         forall i j, (i < 2 * n + 1)%nat -> (j < 2 * n + 1)%nat ->
           ent Rm (n * n + i) (n * n + j) = B (Z.of_nat i - Z.of_nat n)%Z (Z.of_nat j - Z.of_nat n)%Z) /\
    (forall n n' i j, (i < 2 * n + 1)%nat -> (j < 2 * n' + 1)%nat -> n <> n' -> ent Rm (n * n + i) (n' * n' + j) = 0).
Proof.
  intros HN. set (M := rotation_euler yaw pitch roll).
  destruct (rot_blocks_ok M N (euler_ortho yaw pitch roll) HN) as (bs & E & Hl & HB).
  unfold sh_rotation_matrix, sh_rotation_blocks. cbn [check_real bind]. fold M. rewrite E. cbn [bind].
  destruct (block_diag_ok ((N + 1) ^ 2) 0 bs (Mat ((N + 1) ^ 2) ((N + 1) ^ 2) (fun _ _ => 0)) eq_refl eq_refl) as (Rm & ER & RR & RC & HD & HO).
  - intros i Hi. destruct (HB i ltac:(lia)) as (A & B & _). auto.
  - rewrite Hl, sq2. simpl. lia.
  - simpl (0 * 0)%nat in ER. exists Rm. split; auto. split; auto. split; auto. split.
    + intros n _ _ Hn _ _. exists (bz n (nth n bs (meye 0))). split; [apply HB; auto|].
      intros i j Hi Hj. pose proof (HD n i j ltac:(lia) Hi Hj) as X. rewrite !Nat.add_0_l in X. rewrite X. unfold bz. f_equal; lia.
    + intros n n' i j Hi Hj D. rewrite HO; [reflexivity|]. intros k Hk. rewrite Nat.add_0_l.
      intros [A B]. destruct (acn_uniq n i k (n * n + i - k * k)) as [-> _]; [auto|lia|lia|].
      destruct (acn_uniq n' j k (n' * n' + j - k * k)) as [-> _]; [auto|lia|lia|]. auto.
Qed.

(** product of a row of harmonics with the transposed rotation matrix *)
Lemma zs_rsum n f : zs n f = rsum (2 * n + 1) (fun i => f (Z.of_nat i - Z.of_nat n)%Z).
Proof. reflexivity. Qed.

Lemma acn_sum_block N n (f : nat -> R) (g : nat -> R) : (n <= N)%nat ->
  (forall n' k, (n' <= N)%nat -> (k < 2 * n' + 1)%nat -> n' <> n -> f (n' * n' + k)%nat = 0) ->
  (forall k, (k < 2 * n + 1)%nat -> f (n * n + k)%nat = g k) ->
  rsum ((N + 1) ^ 2) f = rsum (2 * n + 1) g.
Proof.
  intros Hn H0 HG. rewrite sq2, rsum_acn. rewrite (rsum_single (N + 1) n).
  - apply rsum_ext. intros; apply HG; auto.
  - lia.
  - intros n' Hn' D. apply rsum_0. intros k Hk. apply H0; auto. lia.
Qed.

Theorem rotation_of_matrix N yaw pitch roll Rm azi zen azi' zen' : (1 <= N)%nat ->
  sh_rotation_matrix N yaw pitch roll ShReal = Ok Rm ->
  0 <= sin zen -> 0 <= sin zen' ->
  sph2cart azi' zen' 1 = mv3 (rotation_euler yaw pitch roll) (sph2cart azi zen 1) ->
  forall n i, (n <= N)%nat -> (i < 2 * n + 1)%nat ->
  sh_real n (Z.of_nat i - Z.of_nat n) azi' zen' =
    rsum ((N + 1) ^ 2) (fun j => let (n', m') := nth j (acn_list N) (O, 0%Z) in sh_real n' m' azi zen * ent Rm (n * n + i) j).
Proof.
  intros HN ER Hz Hz' ED n i Hn Hi.
  destruct (rotation_matrix_ok N yaw pitch roll HN) as (Rm' & ER' & RR & RC & HD & HO).
  rewrite ER in ER'. injection ER' as <-. destruct (HD n i i Hn Hi Hi) as (B & HC & HE).
  rewrite (acn_sum_block N n _ (fun k => B (Z.of_nat i - Z.of_nat n)%Z (Z.of_nat k - Z.of_nat n)%Z * Yz n (Z.of_nat k - Z.of_nat n) (sph2cart azi zen 1))).
  - rewrite sh_real_Yz, ED by auto. rewrite (carries_rotates _ n B (euler_ortho _ _ _) HC) by lia. reflexivity.
  - auto.
  - intros n' k Hn' Hk D. rewrite acn_nth by auto. rewrite HO by auto. ring.
  - intros k Hk. rewrite acn_nth by auto. rewrite HE by auto. rewrite sh_real_Yz by auto. ring.
Qed.

Theorem rotation_matrix_orthogonal N yaw pitch roll Rm : (1 <= N)%nat ->
  sh_rotation_matrix N yaw pitch roll ShReal = Ok Rm ->
  forall a b, (a < (N + 1) ^ 2)%nat -> (b < (N + 1) ^ 2)%nat ->
  rsum ((N + 1) ^ 2) (fun k => ent Rm k a * ent Rm k b) = delta a b.
Proof.
  intros HN ER a b Ha Hb.
  destruct (rotation_matrix_ok N yaw pitch roll HN) as (Rm' & ER' & RR & RC & HD & HO).
  rewrite ER in ER'. injection ER' as <-.
  destruct (acn_decomp N a Ha) as (n & i & Hn & Hi & ->). destruct (acn_decomp N b Hb) as (n' & i' & Hn' & Hi' & ->).
  destruct (Nat.eq_dec n n') as [->|D].
  - destruct (HD n' i i' Hn' Hi Hi') as (B & HC & HE).
    rewrite (acn_sum_block N n' _ (fun k => B (Z.of_nat k - Z.of_nat n')%Z (Z.of_nat i - Z.of_nat n')%Z * B (Z.of_nat k - Z.of_nat n')%Z (Z.of_nat i' - Z.of_nat n')%Z)).
    + pose proof (carries_orthogonal _ n' B (euler_ortho yaw pitch roll) HC (Z.of_nat i - Z.of_nat n') (Z.of_nat i' - Z.of_nat n') ltac:(lia) ltac:(lia)) as E.
      rewrite zs_rsum in E. rewrite E. unfold zdelta, delta.
      destruct (Z.eqb_spec (Z.of_nat i - Z.of_nat n') (Z.of_nat i' - Z.of_nat n')); destruct (Nat.eqb_spec (n' * n' + i) (n' * n' + i')); auto; lia.
    + auto.
    + intros n'' k Hn'' Hk D. rewrite HO by auto. ring.
    + intros k Hk. rewrite !HE by auto. reflexivity.
  - rewrite delta_diff by (intros E; apply acn_uniq in E; auto; lia).
    apply rsum_0. intros k Hk. destruct (acn_decomp N k Hk) as (q & r & Hq & Hr & ->).
    destruct (Nat.eq_dec q n) as [->|D'].
    + rewrite (HO n n' r i') by auto. ring.
    + rewrite (HO q n r i) by auto. ring.
Qed.
