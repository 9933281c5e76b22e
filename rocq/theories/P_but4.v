(** The power gain of the Butterworth band-pass as a function of frequency. *)
From Coq Require Import Lra Lia.
From Verif Require Import Base BaseFacts S_butter M_sph0 M_sph M_process4 P_but1 P_but2.
Open Scope R_scope.

Lemma pow4_le x y : 0 <= x -> 0 <= y -> (x ^ 4 <= y ^ 4 <-> x <= y).
Proof.
  intros X Y. split; intros H; [|apply pow_incr; lra]. destruct (Rle_lt_dec x y) as [K|K]; [exact K|]. exfalso. assert (y ^ 4 < x ^ 4). { assert (y * y < x * x) by nra. replace (y ^ 4) with ((y * y) * (y * y)) by ring. replace (x ^ 4) with ((x * x) * (x * x)) by ring. nra. } lra.
Qed.
Lemma pow4_lt x y : 0 <= x -> x < y -> x ^ 4 < y ^ 4.
Proof. intros X Y. assert (x * x < y * y) by nra. replace (x ^ 4) with ((x * x) * (x * x)) by ring. replace (y ^ 4) with ((y * y) * (y * y)) by ring. nra. Qed.
Lemma pow4_abs x : x ^ 4 = Rabs x ^ 4.
Proof. replace (x ^ 4) with ((x ^ 2) ^ 2) by ring. rewrite <- (pow2_abs x). ring. Qed.
Lemma pow4_ge0 x : 0 <= x ^ 4.
Proof. replace (x ^ 4) with ((x ^ 2) ^ 2) by ring. apply pow2_ge_0. Qed.
Lemma pow4_pos x : x <> 0 -> 0 < x ^ 4.
Proof. intros H. replace (x ^ 4) with ((x ^ 2) ^ 2) by ring. apply sq_pos. apply pow_nonzero. exact H. Qed.
(** the sign of sin x - tan y cos x *)
Lemma sin_tan x y : cos y <> 0 -> sin x - tan y * cos x = sin (x - y) / cos y.
Proof. intros H. rewrite sin_minus. unfold tan. field. exact H. Qed.
Lemma sin_tan_pos x y : 0 <= x <= PI / 2 -> 0 <= y < PI / 2 -> (tan y * cos x <= sin x <-> y <= x).
Proof.
  intros X Y. pose proof PI_RGT_0. assert (C : 0 < cos y) by (apply cos_gt_0; lra). pose proof (sin_tan x y ltac:(lra)) as E. pose proof (Rinv_0_lt_compat _ C) as I. split; intros H0.
  - destruct (Rle_lt_dec y x) as [K|K]; [exact K|]. assert (sin (x - y) < 0) by (apply sin_lt_0_var; lra). unfold Rdiv in E. nra.
  - assert (0 <= sin (x - y)) by (apply sin_ge_0; lra). unfold Rdiv in E. nra.
Qed.
Lemma sin_tan_neg x y : 0 <= x <= PI / 2 -> 0 <= y < PI / 2 -> (sin x <= tan y * cos x <-> x <= y).
Proof.
  intros X Y. pose proof PI_RGT_0. assert (C : 0 < cos y) by (apply cos_gt_0; lra). pose proof (sin_tan x y ltac:(lra)) as E. pose proof (Rinv_0_lt_compat _ C) as I. split; intros H0.
  - destruct (Rle_lt_dec x y) as [K|K]; [exact K|]. assert (0 < sin (x - y)) by (apply sin_gt_0; lra). unfold Rdiv in E. nra.
  - assert (sin (x - y) <= 0). { replace (x - y) with (- (y - x)) by ring. rewrite sin_neg. assert (0 <= sin (y - x)) by (apply sin_ge_0; lra). lra. } unfold Rdiv in E. nra.
Qed.
Lemma sc_range x : 0 <= x <= PI / 2 -> 0 <= sin x /\ 0 <= cos x /\ sin x ^ 2 + cos x ^ 2 = 1.
Proof. intros H. pose proof PI_RGT_0. split; [apply sin_ge_0; lra|]. split; [apply cos_ge_0; lra|]. pose proof (sin2_cos2 x) as E. unfold Rsqr in E. lra. Qed.
Lemma den_pos T1 T2 n c : 0 < T1 -> T1 < T2 -> n ^ 2 + c ^ 2 = 1 -> 0 < (n ^ 2 - T1 * T2 * c ^ 2) ^ 4 + ((T2 - T1) * n * c) ^ 4.
Proof.
  intros A B E. pose proof (pow4_ge0 (n ^ 2 - T1 * T2 * c ^ 2)) as P. pose proof (pow4_ge0 ((T2 - T1) * n * c)) as Q. destruct (Req_dec n 0) as [N|N].
  - subst n. assert (c ^ 2 = 1) by lra. assert (0 < (0 ^ 2 - T1 * T2 * c ^ 2) ^ 4); [|lra]. apply pow4_pos. assert (0 < T1 * T2) by (apply Rmult_lt_0_compat; lra). rewrite H. replace (0 ^ 2) with 0 by ring. lra.
  - destruct (Req_dec c 0) as [K|K].
    + subst c. assert (0 < (n ^ 2 - T1 * T2 * 0 ^ 2) ^ 4); [|lra]. apply pow4_pos. replace (n ^ 2 - T1 * T2 * 0 ^ 2) with (n ^ 2) by ring. apply pow_nonzero. exact N.
    + assert (0 < ((T2 - T1) * n * c) ^ 4); [|lra]. apply pow4_pos. repeat apply Rmult_integral_contrapositive_currified; try assumption. lra.
Qed.
Lemma frac_lt x y x' y' : 0 < y + x -> 0 < y' + x' -> x * y' < x' * y -> x / (y + x) < x' / (y' + x').
Proof. intros A B H. apply (Rmult_lt_reg_r ((y + x) * (y' + x'))); [apply Rmult_lt_0_compat; assumption|]. replace (x / (y + x) * ((y + x) * (y' + x'))) with (x * (y' + x')) by (field; lra). replace (x' / (y' + x') * ((y + x) * (y' + x'))) with (x' * (y + x)) by (field; lra). lra. Qed.
Section Gain.
Variables w1 w2 : R.
Hypothesis A : 0 < w1.
Hypothesis B : w1 < w2.
Hypothesis C : w2 < 1.
Let T1 := tan (PI * w1 / 2).
Let T2 := tan (PI * w2 / 2).
Lemma T1_pos : 0 < T1. Proof. apply tan_range; lra. Qed.
Lemma T12 : T1 < T2. Proof. apply tan_order; lra. Qed.
Lemma T_prod : 0 < T1 * T2. Proof. pose proof T1_pos. pose proof T12. apply Rmult_lt_0_compat; lra. Qed.
Lemma gain_range t : 0 <= band_gain w1 w2 t <= 1.
Proof.
  unfold band_gain. fold T1 T2. pose proof (den_pos T1 T2 (sin (t / 2)) (cos (t / 2)) T1_pos T12) as D. assert (E : sin (t / 2) ^ 2 + cos (t / 2) ^ 2 = 1) by (pose proof (sin2_cos2 (t / 2)) as E; unfold Rsqr in E; lra). specialize (D E). set (u := _ - _ * _) in D. set (v := (T2 - T1) * _ * _) in D. fold u v. pose proof (pow4_ge0 u). pose proof (pow4_ge0 v). split.
  - apply Rmult_le_pos; [assumption|left; apply Rinv_0_lt_compat; exact D].
  - apply (Rmult_le_reg_r (u ^ 4 + v ^ 4)); [exact D|]. unfold Rdiv. rewrite Rmult_assoc, Rinv_l by lra. lra.
Qed.
Lemma gain_ends : band_gain w1 w2 0 = 0 /\ band_gain w1 w2 PI = 0.
Proof.
  unfold band_gain. split.
  - replace (0 / 2) with 0 by field. rewrite sin_0. unfold Rdiv. rewrite Rmult_0_r, Rmult_0_l. replace (0 ^ 4) with 0 by ring. ring.
  - rewrite cos_PI2, Rmult_0_r. replace (0 ^ 4) with 0 by ring. unfold Rdiv. ring.
Qed.
Lemma gain_half t : 0 <= t <= PI -> (1 / 2 <= band_gain w1 w2 t <-> PI * w1 <= t <= PI * w2).
Proof.
  intros H. pose proof PI_RGT_0 as P0. destruct (sc_range (t / 2) ltac:(lra)) as (N & K & E). assert (X1 : 0 <= PI * w1 / 2 < PI / 2) by (split; nra). assert (X2 : 0 <= PI * w2 / 2 < PI / 2) by (split; nra). pose proof (sin_tan_pos (t / 2) _ ltac:(lra) X1) as I1. pose proof (sin_tan_neg (t / 2) _ ltac:(lra) X2) as I2. pose proof (sin_tan_pos (t / 2) _ ltac:(lra) X2) as I3. fold T1 in I1. fold T2 in I2, I3.
  pose proof (den_pos T1 T2 _ _ T1_pos T12 E) as D. unfold band_gain. fold T1 T2. set (n := sin (t / 2)) in *. set (c := cos (t / 2)) in *. pose proof T1_pos as P1. pose proof T12 as P2.
  set (u := n ^ 2 - T1 * T2 * c ^ 2) in *. set (v := (T2 - T1) * n * c) in *. assert (V0 : 0 <= v) by (unfold v; apply Rmult_le_pos; [apply Rmult_le_pos|]; lra).
  assert (F : u * u - v * v = (n - T1 * c) * (n + T1 * c) * ((n - T2 * c) * (n + T2 * c))) by (unfold u, v; ring).
  assert (HF : 1 / 2 <= v ^ 4 / (u ^ 4 + v ^ 4) <-> Rabs u <= v). { rewrite <- (pow4_le (Rabs u) v) by (try apply Rabs_pos; exact V0). rewrite <- pow4_abs. split; intros Q. - apply (Rmult_le_compat_r (u ^ 4 + v ^ 4)) in Q; [|lra]. unfold Rdiv in Q at 2. rewrite Rmult_assoc, Rinv_l in Q by lra. lra. - apply (Rmult_le_reg_r (u ^ 4 + v ^ 4)); [exact D|]. unfold Rdiv at 2. rewrite Rmult_assoc, Rinv_l by lra. lra. }
  rewrite HF. assert (HS : Rabs u <= v <-> u * u <= v * v). { split; intros Q. - replace (u * u) with (Rabs u * Rabs u) by (rewrite <- Rabs_mult; apply Rabs_pos_eq; nra). pose proof (Rabs_pos u). nra. - destruct (Rle_lt_dec (Rabs u) v) as [Z|Z]; [exact Z|]. exfalso. assert (v * v < Rabs u * Rabs u) by nra. rewrite <- Rabs_mult, Rabs_pos_eq in H0 by nra. lra. }
  rewrite HS. assert (Pn : 0 <= T1 * c) by nra. assert (Pn2 : T1 * c <= T2 * c) by nra. split.
  - intros Q. assert (G : (n - T1 * c) * (n + T1 * c) * ((n - T2 * c) * (n + T2 * c)) <= 0) by lra. destruct (Rle_lt_dec (T1 * c) n) as [Z1|Z1].
    + destruct (Rle_lt_dec n (T2 * c)) as [Z2|Z2]; [apply I1 in Z1; apply I2 in Z2; lra|]. exfalso. assert (0 < (n - T1 * c) * (n + T1 * c)) by (apply Rmult_lt_0_compat; lra). assert (0 < (n - T2 * c) * (n + T2 * c)) by (apply Rmult_lt_0_compat; lra). nra.
    + exfalso. assert (CP : 0 < c) by nra. assert ((n - T1 * c) * (n + T1 * c) < 0) by nra. assert ((n - T2 * c) * (n + T2 * c) < 0) by nra. nra.
  - intros [Q1 Q2]. assert (Z1 : T1 * c <= n) by (apply I1; lra). assert (Z2 : n <= T2 * c) by (apply I2; lra). assert (0 <= (n - T1 * c) * (n + T1 * c)) by (apply Rmult_le_pos; lra). assert ((n - T2 * c) * (n + T2 * c) <= 0) by nra. nra.
Qed.
Lemma gain_at n c k : 0 < T2 - T1 -> n = k * c -> c <> 0 -> 0 < k -> (k - T1) * (k - T2) = 0 ->
  ((T2 - T1) * n * c) ^ 4 / ((n ^ 2 - T1 * T2 * c ^ 2) ^ 4 + ((T2 - T1) * n * c) ^ 4) = 1 / 2.
Proof.
  intros D N C0 K E. subst n. pose proof T1_pos. assert (V : (T2 - T1) * (k * c) * c <> 0) by (repeat apply Rmult_integral_contrapositive_currified; lra). pose proof (pow4_pos _ V) as V4.
  assert (U : ((k * c) ^ 2 - T1 * T2 * c ^ 2) ^ 4 = ((T2 - T1) * (k * c) * c) ^ 4). { apply Rmult_integral in E. destruct E as [E|E]; [assert (k = T1) by lra|assert (k = T2) by lra]; subst k; ring. }
  rewrite U. field. lra.
Qed.
Lemma gain_edges : band_gain w1 w2 (PI * w1) = 1 / 2 /\ band_gain w1 w2 (PI * w2) = 1 / 2.
Proof.
  pose proof PI_RGT_0 as P0. pose proof T1_pos as P1. pose proof T12 as P2.
  assert (G : forall w, 0 < w < 1 -> sin (PI * w / 2) = tan (PI * w / 2) * cos (PI * w / 2) /\ cos (PI * w / 2) <> 0). { intros w W. assert (cos (PI * w / 2) <> 0) by (apply Rgt_not_eq; apply cos_gt_0; nra). split; [|assumption]. unfold tan. field. assumption. }
  unfold band_gain. fold T1 T2. split.
  - destruct (G w1 ltac:(lra)) as [G1 G2]. apply (gain_at _ _ T1); try assumption; try lra; ring.
  - destruct (G w2 ltac:(lra)) as [G1 G2]. apply (gain_at _ _ T2); try assumption; try lra; ring.
Qed.
Definition centre : R := 2 * atan (sqrt (tan (PI * w1 / 2) * tan (PI * w2 / 2))).
Lemma tan_centre : tan (centre / 2) = sqrt (T1 * T2).
Proof. unfold centre. replace (2 * atan (sqrt (tan (PI * w1 / 2) * tan (PI * w2 / 2))) / 2) with (atan (sqrt (T1 * T2))) by (fold T1 T2; field). apply tan_atan. Qed.
Lemma centre_range : 0 <= centre / 2 < PI / 2.
Proof.
  unfold centre. fold T1 T2. pose proof (atan_bound (sqrt (T1 * T2))) as B2. replace (2 * atan (sqrt (T1 * T2)) / 2) with (atan (sqrt (T1 * T2))) by field. split; [|lra]. rewrite <- atan_0. destruct (Req_dec 0 (sqrt (T1 * T2))) as [E|E]; [rewrite <- E; lra|]. left. apply atan_increasing. pose proof (sqrt_pos (T1 * T2)). lra.
Qed.
Lemma centre_in : PI * w1 < centre < PI * w2.
Proof.
  pose proof centre_range as CR. pose proof tan_centre as TC. pose proof PI_RGT_0. pose proof T1_pos as P1. pose proof T12 as P2. assert (S1 : T1 < sqrt (T1 * T2)) by (rewrite <- (sqrt_square T1) at 1 by lra; apply sqrt_lt_1; nra). assert (S2 : sqrt (T1 * T2) < T2) by (rewrite <- (sqrt_square T2) at 2 by lra; apply sqrt_lt_1; nra). rewrite <- TC in S1, S2. split.
  - destruct (Rlt_le_dec (PI * w1 / 2) (centre / 2)) as [K|K]; [lra|]. destruct K as [K|K]; [assert (tan (centre / 2) < T1) by (apply tan_increasing; nra); lra|rewrite K in S1; fold T1 in S1; lra].
  - destruct (Rlt_le_dec (centre / 2) (PI * w2 / 2)) as [K|K]; [lra|]. destruct K as [K|K]; [assert (T2 < tan (centre / 2)) by (apply tan_increasing; nra); lra|rewrite <- K in S2; fold T2 in S2; lra].
Qed.
Lemma gain_centre : band_gain w1 w2 centre = 1.
Proof.
  pose proof centre_range as CR. pose proof tan_centre as TC. pose proof PI_RGT_0. assert (C0 : 0 < cos (centre / 2)) by (apply cos_gt_0; lra). assert (N : sin (centre / 2) = sqrt (T1 * T2) * cos (centre / 2)) by (rewrite <- TC; unfold tan; field; lra). unfold band_gain. fold T1 T2. rewrite N. pose proof T_prod as TP. pose proof (sqrt_sqrt (T1 * T2) ltac:(lra)) as SS. pose proof T12.
  replace ((sqrt (T1 * T2) * cos (centre / 2)) ^ 2 - T1 * T2 * cos (centre / 2) ^ 2) with ((sqrt (T1 * T2) * sqrt (T1 * T2) - T1 * T2) * cos (centre / 2) ^ 2) by ring. rewrite SS. assert (S0 : 0 < sqrt (T1 * T2)) by (apply sqrt_lt_R0; exact TP). assert (V : (T2 - T1) * (sqrt (T1 * T2) * cos (centre / 2)) * cos (centre / 2) <> 0) by (repeat apply Rmult_integral_contrapositive_currified; lra). pose proof (pow4_pos _ V). replace (T1 * T2 - T1 * T2) with 0 by ring. rewrite Rmult_0_l. replace (0 ^ 4) with 0 by ring. rewrite Rplus_0_l. field. lra.
Qed.
Lemma below_centre t : 0 <= t <= PI -> (sin (t / 2) ^ 2 <= T1 * T2 * cos (t / 2) ^ 2 <-> t <= centre) /\ (T1 * T2 * cos (t / 2) ^ 2 <= sin (t / 2) ^ 2 <-> centre <= t).
Proof.
  intros H. destruct (sc_range (t / 2) ltac:(lra)) as (N & K & E). pose proof T_prod as TP. pose proof (sqrt_sqrt (T1 * T2) ltac:(lra)) as SS. pose proof (sqrt_pos (T1 * T2)) as S0. pose proof (sin_tan_neg (t / 2) (centre / 2) ltac:(lra) centre_range) as I1. pose proof (sin_tan_pos (t / 2) (centre / 2) ltac:(lra) centre_range) as I2. rewrite tan_centre in I1, I2. set (r := sqrt (T1 * T2)) in *. rewrite <- SS.
  set (n := sin (t / 2)) in *. set (c := cos (t / 2)) in *. assert (RC : 0 <= r * c) by nra. replace (r * r * c ^ 2) with ((r * c) * (r * c)) by ring. replace (n ^ 2) with (n * n) by ring. split; split; intros Q.
  - assert (n <= r * c) by nra. apply I1 in H0. lra.
  - assert (n <= r * c) by (apply I1; lra). nra.
  - assert (r * c <= n) by nra. apply I2 in H0. lra.
  - assert (r * c <= n) by (apply I2; lra). nra.
Qed.
Lemma gain_rises t t' : 0 <= t -> t < t' -> t' <= centre -> band_gain w1 w2 t < band_gain w1 w2 t'.
Proof.
  intros H1 H2 H3. pose proof PI_RGT_0. pose proof centre_range. destruct (sc_range (t / 2) ltac:(lra)) as (N & K & E). destruct (sc_range (t' / 2) ltac:(lra)) as (N' & K' & E'). pose proof (proj2 (proj1 (below_centre t ltac:(lra))) ltac:(lra)) as L. pose proof (proj2 (proj1 (below_centre t' ltac:(lra))) ltac:(lra)) as L'.
  pose proof (den_pos T1 T2 _ _ T1_pos T12 E) as D. pose proof (den_pos T1 T2 _ _ T1_pos T12 E') as D'. unfold band_gain. fold T1 T2. apply frac_lt; [exact D|exact D'|]. assert (S0 : 0 < sin (t' / 2 - t / 2)) by (apply sin_gt_0; lra). rewrite sin_minus in S0. assert (CC : 0 < cos (t / 2) * cos (t' / 2)) by (apply Rmult_lt_0_compat; apply cos_gt_0; lra).
  set (n := sin (t / 2)) in *. set (c := cos (t / 2)) in *. set (n' := sin (t' / 2)) in *. set (c' := cos (t' / 2)) in *. pose proof T_prod as TP. pose proof T12 as P2.
  rewrite (pow4_abs (n' ^ 2 - _)), (pow4_abs (n ^ 2 - _)). rewrite !Rabs_left1 by lra. rewrite <- !Rpow_mult_distr. apply pow4_lt; [repeat apply Rmult_le_pos; lra|].
  assert (F : (T2 - T1) * n * c * - (n' ^ 2 - T1 * T2 * c' ^ 2) - (T2 - T1) * n' * c' * - (n ^ 2 - T1 * T2 * c ^ 2) = - ((T2 - T1) * (T1 * T2 * (c * c') + n * n') * (n' * c - c' * n))) by ring. assert (0 < T1 * T2 * (c * c')) by (apply Rmult_lt_0_compat; assumption). assert (0 <= n * n') by (apply Rmult_le_pos; assumption). assert (0 < (T2 - T1) * (T1 * T2 * (c * c') + n * n') * (n' * c - c' * n)) by (apply Rmult_lt_0_compat; [apply Rmult_lt_0_compat|]; lra). lra.
Qed.
Lemma gain_falls t t' : centre <= t -> t < t' -> t' <= PI -> band_gain w1 w2 t' < band_gain w1 w2 t.
Proof.
  intros H1 H2 H3. pose proof PI_RGT_0. pose proof centre_range. assert (C1 : 0 < centre) by (pose proof centre_in; assert (0 < PI * w1) by nra; lra). destruct (sc_range (t / 2) ltac:(lra)) as (N & K & E). destruct (sc_range (t' / 2) ltac:(lra)) as (N' & K' & E'). pose proof (proj2 (proj2 (below_centre t ltac:(lra))) ltac:(lra)) as L. pose proof (proj2 (proj2 (below_centre t' ltac:(lra))) ltac:(lra)) as L'.
  pose proof (den_pos T1 T2 _ _ T1_pos T12 E) as D. pose proof (den_pos T1 T2 _ _ T1_pos T12 E') as D'. unfold band_gain. fold T1 T2. apply frac_lt; [exact D'|exact D|]. assert (S0 : 0 < sin (t' / 2 - t / 2)) by (apply sin_gt_0; lra). rewrite sin_minus in S0. assert (NN : 0 < sin (t / 2) * sin (t' / 2)) by (apply Rmult_lt_0_compat; apply sin_gt_0; lra).
  set (n := sin (t / 2)) in *. set (c := cos (t / 2)) in *. set (n' := sin (t' / 2)) in *. set (c' := cos (t' / 2)) in *. pose proof T_prod as TP. pose proof T12 as P2.
  rewrite (pow4_abs (n' ^ 2 - _)), (pow4_abs (n ^ 2 - _)). rewrite !Rabs_pos_eq by lra. rewrite <- !Rpow_mult_distr. apply pow4_lt; [repeat apply Rmult_le_pos; lra|].
  assert (F : (T2 - T1) * n' * c' * (n ^ 2 - T1 * T2 * c ^ 2) - (T2 - T1) * n * c * (n' ^ 2 - T1 * T2 * c' ^ 2) = - ((T2 - T1) * (T1 * T2 * (c * c') + n * n') * (n' * c - c' * n))) by ring. assert (0 <= T1 * T2 * (c * c')) by (apply Rmult_le_pos; [lra|apply Rmult_le_pos; assumption]). assert (0 < (T2 - T1) * (T1 * T2 * (c * c') + n * n') * (n' * c - c' * n)) by (apply Rmult_lt_0_compat; [apply Rmult_lt_0_compat|]; lra). lra.
Qed.
End Gain.
