(** The warning of calculate_grid_weights. *)
From Coq Require Import Lra Lia.
From Verif Require Import Base BaseFacts M_utils M_sig P_sig M_sph0 M_sph M_grids M_warn S_utils S_sph S_grids S_svd P_sph7 P_sph11 P_grids3 P_svd3 P_dec9 X_sph S_order P_order X_order X_order2.
Open Scope R_scope.

Lemma warn_exact w : lsum w = 4 * PI -> (weights_warn w = true <-> exists x, In x w /\ x < 0).
Proof.
  intros S. unfold weights_warn. rewrite S, Rminus_diag_eq, Rabs_R0 by reflexivity. destruct (Rltb (1 / 100) 0) eqn:E; [apply Rltb_true in E; lra|]. cbn [orb]. rewrite existsb_exists.
  split; intros (x & I & H); exists x; (split; [exact I|apply Rltb_true; exact H]).
Qed.
Lemma f_warn_order pinv cond N azi zen Y : exact_pinv pinv -> (1 <= N)%nat -> length zen = length azi -> zeniths zen -> sh_matrix N azi zen = Ok Y -> left_invertible Y ->
  exists w warned, grid_weights_said pinv cond azi zen (Some (Z.of_nat N)) = Ok (w, warned) /\ exact_for sh_real N azi zen w /\ (warned = true <-> exists x, In x w /\ x < 0).
Proof.
  intros HP HN L Z E LI. destruct (grid_weights_ok pinv cond N azi zen Y) as (w & EW & X & _); auto. exists w, (weights_warn w). unfold grid_weights_said. rewrite EW. cbn [bind].
  split; [reflexivity|]. split; [exact X|]. apply warn_exact, X.
Qed.
Lemma f_warn_found pinv cond azi zen w warned : exact_pinv pinv -> cond_contract cond -> length zen = length azi -> zeniths zen -> (length azi < 100 ^ 2)%nat ->
  grid_weights_said pinv cond azi zen None = Ok (w, warned) -> (warned = true <-> exists x, In x w /\ x < 0).
Proof.
  intros HP HC L Z HQ E. unfold grid_weights_said in E. destruct (order_result pinv cond azi zen HP HC L Z HQ) as (N & _ & _ & E0 & E1). destruct N as [|N].
  - rewrite E0 in E by reflexivity. discriminate.
  - destruct (E1 ltac:(lia)) as (_ & w' & EW & X & _). rewrite EW in E. cbn [bind] in E. injection E as <- <-. apply warn_exact, X.
Qed.
Lemma f_warn_designs pinv cond azi zen N : exact_pinv pinv -> (1 <= N)%nat -> exact_for sh_real (2 * N) azi zen (equal_weights (length azi)) ->
  grid_weights_said pinv cond azi zen (Some (Z.of_nat N)) = Ok (equal_weights (length azi), false).
Proof.
  intros HP HN EX. unfold grid_weights_said. rewrite (f_order_designs pinv cond azi zen N HP HN EX). cbn [bind]. do 2 f_equal. destruct (weights_warn (equal_weights (length azi))) eqn:E; [|reflexivity].
  apply warn_exact in E; [|apply EX]. destruct E as (x & I & H). apply repeat_spec in I. subst x. exfalso. pose proof EX as (_ & _ & _ & S & _).
  assert (Q : (0 < length azi)%nat). { destruct (length azi) as [|q] eqn:Eq; [|lia]. cbn in S. pose proof PI_RGT_0. lra. }
  assert (0 < 4 * PI / INR (length azi)) by (apply Rdiv_lt_0_compat; [pose proof PI_RGT_0; lra|apply lt_0_INR; exact Q]). lra.
Qed.
Lemma odd_sum N : rsum (N + 1) (fun n => (2 * INR n + 1) / (4 * PI)) = (INR N + 1) ^ 2 / (4 * PI).
Proof.
  pose proof PI_RGT_0. induction N as [|N IH]; [cbn; field; lra|]. replace (S N + 1)%nat with (S (N + 1)) by lia. cbn [rsum]. rewrite IH. rewrite !S_INR, plus_INR. cbn [INR]. field. lra.
Qed.
Lemma f_warn_point pinv cond a z N : exact_pinv pinv -> (1 <= N)%nat -> 0 <= z <= PI -> grid_weights_said pinv cond [a] [z] (Some (Z.of_nat N)) = Ok ([4 * PI / (INR N + 1) ^ 2], true).
Proof.
  intros HP HN Hz. pose proof PI_RGT_0 as P0. destruct (sh_matrix_ok N [a] [z] eq_refl) as (Y & E & RY & CY & HY). cbn [length] in RY.
  destruct (HP Y) as (RP & CP & P1 & P2 & P3 & P4). rewrite RY in *. assert (K0 : (0 < nc Y)%nat) by (rewrite CY; cbn [Nat.pow]; lia).
  assert (P3' : rsum (nc Y) (fun k => ent Y 0 k * ent (pinv Y) k 0%nat) * ent Y 0 0 = ent Y 0 0).
  { specialize (P1 0%nat 0%nat ltac:(lia) K0). cbn [rsum] in P1. unfold mprod in P1. lra. }
  assert (Y00 : sqrt (4 * PI) * ent Y 0 0 = 1). { pose proof (HY 0%nat 0%nat 0%nat ltac:(cbn; lia) ltac:(lia) ltac:(lia)) as H. cbn [Nat.mul Nat.add nth Z.of_nat Z.sub Z.opp Z.add] in H. rewrite H. apply y00. }
  assert (NZ : ent Y 0 0 <> 0) by (intros C; rewrite C in Y00; lra).
  assert (ONE : rsum (nc Y) (fun k => ent Y 0 k * ent (pinv Y) k 0%nat) = 1) by (apply Rmult_eq_reg_r with (ent Y 0 0); [lra|exact NZ]).
  assert (SY : forall i j, (i < nc Y)%nat -> (j < nc Y)%nat -> ent (pinv Y) i 0%nat * ent Y 0 j = ent (pinv Y) j 0%nat * ent Y 0 i).
  { intros i j Hi Hj. specialize (P4 i j Hi Hj). unfold mprod in P4. cbn [rsum] in P4. lra. }
  assert (SS : rsum (nc Y) (fun k => ent Y 0 k * ent Y 0 k) = (INR N + 1) ^ 2 / (4 * PI)).
  { rewrite <- odd_sum, CY. replace ((N + 1) ^ 2)%nat with ((N + 1) * (N + 1))%nat by (cbn [Nat.pow]; lia). rewrite rsum_acn. apply rsum_ext. intros n Hn. rewrite <- (unsoeld n a z Hz). apply rsum_ext. intros k Hk. rewrite !HY by (cbn [length]; lia). reflexivity. }
  assert (PV : ent (pinv Y) 0%nat 0%nat * ((INR N + 1) ^ 2 / (4 * PI)) = ent Y 0 0).
  { rewrite <- SS, <- rsum_scal. transitivity (rsum (nc Y) (fun k => ent Y 0 0 * (ent Y 0 k * ent (pinv Y) k 0%nat))); [|rewrite rsum_scal, ONE; ring]. apply rsum_ext. intros k Hk. rewrite <- Rmult_assoc, (SY 0%nat k K0 Hk). ring. }
  assert (I0 : 2 <= INR N + 1) by (assert (1 <= INR N) by (apply (le_INR 1); exact HN); lra).
  assert (V : sqrt (4 * PI) * ent (pinv Y) 0%nat 0%nat = 4 * PI / (INR N + 1) ^ 2).
  { apply Rmult_eq_reg_r with ((INR N + 1) ^ 2 / (4 * PI)); [|apply Rgt_not_eq, Rdiv_lt_0_compat; [apply pow_lt; lra|lra]]. rewrite Rmult_assoc, PV, Y00. field. split; [lra|]. lra. }
  unfold grid_weights_said, calculate_grid_weights. cbn [bind]. destruct (Z.ltb_spec 0 (Z.of_nat N)); [|lia]. cbn [assert_ bind]. rewrite Nat2Z.id, E. cbn [bind]. rewrite CP. cbn [seq map]. rewrite V. do 2 f_equal.
  unfold weights_warn. rewrite (proj2 (Rltb_true _ _)); [reflexivity|]. cbn [lsum fold_right].
  assert (Q : 4 * PI / (INR N + 1) ^ 2 <= PI). { apply Rmult_le_reg_r with ((INR N + 1) ^ 2); [apply pow_lt; lra|]. unfold Rdiv. rewrite Rmult_assoc, Rinv_l by (apply Rgt_not_eq, pow_lt; lra). assert (4 <= (INR N + 1) ^ 2) by nra. nra. }
  pose proof PI2_1. rewrite Rabs_left by lra. lra.
Qed.
Lemma ex_warn : exists pinv cond, exact_pinv pinv /\ cond_contract cond /\ exact_for sh_real (2 * 1) octa_azi octa_zen (equal_weights (length octa_azi)) /\
  (exists Y, sh_matrix 1 octa_azi octa_zen = Ok Y /\ left_invertible Y) /\ grid_weights_said pinv cond [0] [PI / 2] (Some 1%Z) = Ok ([4 * PI / (INR 1 + 1) ^ 2], true).
Proof.
  destruct pinv_function as (pinv & HP). destruct cond_exists as (cond & HC). exists pinv, cond. pose proof PI_RGT_0. split; [exact HP|]. split; [exact HC|]. split; [exact octa_grid|]. split.
  - destruct octa_penrose as (Y & E & LI & _). exists Y. auto.
  - apply (f_warn_point pinv cond 0 (PI / 2) 1 HP); [lia|lra].
Qed.
