(** Proofs about the model of utils.py. *)
From Verif Require Import Base BaseFacts M_utils S_utils.
Open Scope R_scope.

Ltac v3 := unfold det3, mm3, mv3, tr3, madd3, mscal3, eye3, row1, row2, row3,
  dot3, cross3, scal3, add3, sub3, vx, vy, vz in *; cbn [fst snd] in *.
Ltac pairs := repeat match goal with |- (_, _) = (_, _) => apply f_equal2 end.

(** ** arctan2 *)
Lemma sqrt_quot x y : x <> 0 -> sqrt (1 + Rsqr (y / x)) = sqrt (x * x + y * y) / Rabs x.
Proof.
  intros Hx. assert (0 < Rabs x) by (apply Rabs_pos_lt; auto).
  replace (1 + Rsqr (y / x)) with ((x * x + y * y) / (Rabs x * Rabs x)).
  - rewrite sqrt_div_alt by nra. rewrite sqrt_square by lra. reflexivity.
  - assert (Rabs x * Rabs x = x * x) as E.
    { rewrite <- Rabs_mult. apply Rabs_pos_eq. nra. }
    rewrite E. unfold Rsqr. field. auto.
Qed.

Lemma hyp_pos x y : x <> 0 -> 0 < sqrt (x * x + y * y).
Proof. intros H. apply sqrt_lt_R0. nra. Qed.

Lemma arctan2_polar y x :
  let rho := sqrt (x * x + y * y) in
  rho * cos (arctan2 y x) = x /\ rho * sin (arctan2 y x) = y.
Proof.
  cbn zeta. unfold arctan2.
  destruct (Rltb 0 x) eqn:E1; [apply Rltb_true in E1 | apply Rltb_false in E1].
  - rewrite cos_atan, sin_atan, sqrt_quot by lra. rewrite Rabs_pos_eq by lra.
    pose proof (hyp_pos x y ltac:(lra)). split; field; lra.
  - destruct (Rltb x 0) eqn:E2; [apply Rltb_true in E2 | apply Rltb_false in E2].
    + pose proof (hyp_pos x y ltac:(lra)).
      destruct (Rleb 0 y) eqn:E3.
      * rewrite neg_cos, neg_sin, cos_atan, sin_atan, sqrt_quot by lra.
        rewrite Rabs_left by lra. split; field; lra.
      * replace (atan (y / x) - PI) with (atan (y / x) + PI + 2 * INR 1 * - PI)
          by (simpl; ring).
        assert (forall a, cos (a + 2 * INR 1 * - PI) = cos a /\ sin (a + 2 * INR 1 * - PI) = sin a) as P.
        { intros a. split.
          - rewrite <- (cos_period (a + 2 * INR 1 * - PI) 1). f_equal. simpl; ring.
          - rewrite <- (sin_period (a + 2 * INR 1 * - PI) 1). f_equal. simpl; ring. }
        destruct (P (atan (y / x) + PI)) as [-> ->].
        rewrite neg_cos, neg_sin, cos_atan, sin_atan, sqrt_quot by lra.
        rewrite Rabs_left by lra. split; field; lra.
    + assert (x = 0) as -> by lra.
      replace (0 * 0 + y * y) with (y * y) by ring.
      destruct (Rltb 0 y) eqn:E3; [apply Rltb_true in E3 | apply Rltb_false in E3].
      * rewrite cos_PI2, sin_PI2, sqrt_square by lra. lra.
      * destruct (Rltb y 0) eqn:E4; [apply Rltb_true in E4 | apply Rltb_false in E4].
        -- rewrite cos_neg, sin_neg, cos_PI2, sin_PI2.
           replace (y * y) with (- y * - y) by ring. rewrite sqrt_square by lra. lra.
        -- assert (y = 0) as -> by lra. rewrite cos_0, sin_0, Rmult_0_l, sqrt_0. lra.
Qed.

Lemma arctan2_range y x : - PI < arctan2 y x <= PI.
Proof.
  unfold arctan2. pose proof PI_RGT_0 as HP. pose proof (atan_bound (y / x)) as HB.
  destruct (Rltb 0 x) eqn:E1; [apply Rltb_true in E1 | apply Rltb_false in E1]; [lra|].
  destruct (Rltb x 0) eqn:E2; [apply Rltb_true in E2 | apply Rltb_false in E2].
  - destruct (Rleb 0 y) eqn:E3; [apply Rleb_true in E3 | apply Rleb_false in E3].
    + assert (atan (y / x) <= 0); [|lra].
      destruct E3 as [E3|<-]; [|replace (0 / x) with 0 by (field; lra); rewrite atan_0; lra].
      rewrite <- atan_0. left. apply atan_increasing.
      unfold Rdiv. rewrite Rmult_comm. apply Ropp_lt_cancel. rewrite Ropp_0, Ropp_mult_distr_l.
      apply Rmult_lt_0_compat; auto. rewrite <- Rinv_opp.
      apply Rinv_0_lt_compat. lra.
    + assert (0 < atan (y / x)); [|lra].
      rewrite <- atan_0. apply atan_increasing.
      replace (y / x) with (- y * / - x) by (field; lra).
      apply Rmult_lt_0_compat; [lra|]. apply Rinv_0_lt_compat. lra.
  - destruct (Rltb 0 y); [lra|]. destruct (Rltb y 0); lra.
Qed.

(** an angle is determined by its sine and cosine within one turn *)
Lemma cos_sin_unique a b :
  cos a = cos b -> sin a = sin b -> - (2 * PI) < a - b < 2 * PI -> a = b.
Proof.
  intros Hc Hs Hr.
  assert (E : cos (a - b) = 1).
  { rewrite cos_minus, Hc, Hs. pose proof (sin2_cos2 b) as H. unfold Rsqr in H. lra. }
  destruct (Rtotal_order (a - b) 0) as [H|[H|H]]; [|lra|]; exfalso.
  - assert (sin ((a - b) / 2) = 0) as E2.
    { replace (a - b) with (2 * ((a - b) / 2)) in E by field.
      rewrite cos_2a_sin in E. nra. }
    assert (sin (- ((a - b) / 2)) > 0) by (apply sin_gt_0; lra).
    rewrite sin_neg in H0. lra.
  - assert (sin ((a - b) / 2) = 0) as E2.
    { replace (a - b) with (2 * ((a - b) / 2)) in E by field.
      rewrite cos_2a_sin in E. nra. }
    assert (sin ((a - b) / 2) > 0) by (apply sin_gt_0; lra). lra.
Qed.

Lemma arctan2_unique rho a x y :
  0 < rho -> - PI < a <= PI -> x = rho * cos a -> y = rho * sin a -> arctan2 y x = a.
Proof.
  intros Hr Ha -> ->.
  pose proof (arctan2_range (rho * sin a) (rho * cos a)) as Hb.
  destruct (arctan2_polar (rho * sin a) (rho * cos a)) as [H1 H2].
  replace (rho * cos a * (rho * cos a) + rho * sin a * (rho * sin a)) with (rho * rho) in *.
  2:{ pose proof (sin2_cos2 a) as H. unfold Rsqr in H. nra. }
  rewrite sqrt_square in * by lra.
  apply cos_sin_unique; [nra|nra|lra].
Qed.

(** ** Python modulo *)
Lemma pymod_range a m : 0 < m -> 0 <= pymod a m < m.
Proof.
  intros Hm. unfold pymod. destruct (base_Int_part (a / m)) as [H1 H2].
  set (k := IZR (Int_part (a / m))) in *. clearbody k.
  assert (a = m * (a / m)) as E by (field; lra).
  set (q := a / m) in *. clearbody q. nra.
Qed.

Lemma pymod_congr a m : 0 < m -> congr m (pymod a m) a.
Proof. intros Hm. exists (- Int_part (a / m))%Z. unfold pymod. rewrite opp_IZR. ring. Qed.

Lemma congr_unique m a b :
  0 < m -> congr m a b -> 0 <= a < m -> 0 <= b < m -> a = b.
Proof.
  intros Hm [k ->] Ha Hb.
  assert (-1 < IZR k < 1) as Hk by nra.
  assert (k = 0)%Z as ->.
  { assert (-1 < k < 1)%Z; [|lia]. split; apply lt_IZR; lra. }
  ring.
Qed.

Lemma congr_sym m a b : congr m a b -> congr m b a.
Proof. intros [k ->]. exists (- k)%Z. rewrite opp_IZR. ring. Qed.
Lemma congr_trans m a b c : congr m a b -> congr m b c -> congr m a c.
Proof. intros [k ->] [l ->]. exists (k + l)%Z. rewrite plus_IZR. ring. Qed.
Lemma congr_scal m s a b : congr m a b -> congr (m * s) (a * s) (b * s).
Proof. intros [k ->]. exists k. ring. Qed.

Lemma pymod_id a m : 0 < m -> 0 <= a < m -> pymod a m = a.
Proof.
  intros Hm Ha. apply (congr_unique m); auto using pymod_congr.
  apply pymod_range; auto.
Qed.

Lemma pymod_eq_congr a b m : 0 < m -> congr m a b -> pymod a m = pymod b m.
Proof.
  intros Hm H. apply (congr_unique m); auto using pymod_range.
  eapply congr_trans; [apply pymod_congr; auto|].
  eapply congr_trans; [apply H|]. apply congr_sym, pymod_congr; auto.
Qed.

Lemma cos_congr a b : congr (2 * PI) a b -> cos a = cos b.
Proof.
  intros [k ->]. destruct (Z_le_dec 0 k) as [H|H].
  - rewrite <- (Z2Nat.id k) by auto. rewrite <- INR_IZR_INZ.
    rewrite <- (cos_period b (Z.to_nat k)). f_equal. ring.
  - replace k with (- Z.of_nat (Z.to_nat (- k)))%Z by lia.
    rewrite opp_IZR, <- INR_IZR_INZ.
    rewrite <- (cos_period (b + - INR (Z.to_nat (- k)) * (2 * PI)) (Z.to_nat (- k))).
    f_equal. ring.
Qed.
Lemma sin_congr a b : congr (2 * PI) a b -> sin a = sin b.
Proof.
  intros [k ->]. destruct (Z_le_dec 0 k) as [H|H].
  - rewrite <- (Z2Nat.id k) by auto. rewrite <- INR_IZR_INZ.
    rewrite <- (sin_period b (Z.to_nat k)). f_equal. ring.
  - replace k with (- Z.of_nat (Z.to_nat (- k)))%Z by lia.
    rewrite opp_IZR, <- INR_IZR_INZ.
    rewrite <- (sin_period (b + - INR (Z.to_nat (- k)) * (2 * PI)) (Z.to_nat (- k))).
    f_equal. ring.
Qed.

(** ** arccos *)
Lemma np_acos_ok x : -1 <= x <= 1 -> np_acos x = Some (acos x).
Proof.
  intros H. unfold np_acos.
  replace (Rleb (-1) x) with true by (symmetry; apply Rleb_true; lra).
  replace (Rleb x 1) with true by (symmetry; apply Rleb_true; lra). reflexivity.
Qed.
Lemma np_asin_ok x : -1 <= x <= 1 -> np_asin x = Some (asin x).
Proof.
  intros H. unfold np_asin.
  replace (Rleb (-1) x) with true by (symmetry; apply Rleb_true; lra).
  replace (Rleb x 1) with true by (symmetry; apply Rleb_true; lra). reflexivity.
Qed.
Lemma np_div_ok x y : y <> 0 -> np_div x y = Some (x / y).
Proof. intros H. unfold np_div. apply Reqb_false in H. rewrite H. reflexivity. Qed.

Lemma acos_unique x th : 0 <= th <= PI -> x = cos th -> acos x = th.
Proof. intros H ->. apply acos_cos. auto. Qed.

Lemma quot_bound z s r : 0 < r -> z * z <= r * r -> s = r -> -1 <= z / s <= 1.
Proof.
  intros Hr Hz ->.
  assert (- r <= z <= r) by nra.
  assert (0 < / r) by (apply Rinv_0_lt_compat; auto).
  unfold Rdiv. split.
  - replace (-1) with (- r * / r) by (field; lra). apply Rmult_le_compat_r; lra.
  - replace 1 with (r * / r) by (field; lra). apply Rmult_le_compat_r; lra.
Qed.

(** ** C01 *)
Lemma sumsq_pos x y z : (x, y, z) <> (0, 0, 0) -> 0 < x ^ 2 + y ^ 2 + z ^ 2.
Proof.
  intros H. destruct (Req_dec x 0) as [->|]; [|nra].
  destruct (Req_dec y 0) as [->|]; [|nra].
  destruct (Req_dec z 0) as [->|]; [|nra]. congruence.
Qed.

Lemma cart2sph_zen x y z p s :
  (x, y, z) <> (0, 0, 0) ->
  (s = true -> 10 * / 10 ^ 15 <= sqrt (x ^ 2 + y ^ 2 + z ^ 2)) ->
  let r := sqrt (x ^ 2 + y ^ 2 + z ^ 2) in
  cart2sph x y z p s =
  ((if p then pymod (arctan2 y x) (2 * PI) else arctan2 y x), Some (acos (z / r)), r).
Proof.
  intros H0 Hs r. unfold cart2sph. fold r.
  assert (Hr : 0 < r) by (apply sqrt_lt_R0, sumsq_pos; auto).
  assert (Hrr : r * r = x ^ 2 + y ^ 2 + z ^ 2).
  { apply sqrt_sqrt. left. apply sumsq_pos; auto. }
  assert (Hb : -1 <= z / r <= 1) by (apply quot_bound with r; nra).
  destruct s; cbn [negb].
  - unfold clip_lo. rewrite Rmax_right by (apply Hs; auto).
    rewrite np_div_ok by lra. cbn [obind]. rewrite np_acos_ok by auto. reflexivity.
  - rewrite np_div_ok by lra. cbn [obind]. rewrite np_acos_ok by auto. reflexivity.
Qed.

Lemma acos_pymod_cos a : cos (pymod a (2 * PI)) = cos a /\ sin (pymod a (2 * PI)) = sin a.
Proof.
  pose proof PI_RGT_0.
  split; [apply cos_congr|apply sin_congr]; apply pymod_congr; lra.
Qed.

Lemma sph_of_cart x y z r :
  0 < r -> r * r = x ^ 2 + y ^ 2 + z ^ 2 ->
  sph2cart (arctan2 y x) (acos (z / r)) r = (x, y, z).
Proof.
  intros Hr Hrr.
  assert (Hb : -1 <= z / r <= 1) by (apply quot_bound with r; nra).
  unfold sph2cart. rewrite cos_acos, sin_acos by auto.
  assert (E : r * sqrt (1 - (z / r)²) = sqrt (x * x + y * y)).
  { rewrite <- (sqrt_square r) at 1 by lra. rewrite <- sqrt_mult by (try nra; unfold Rsqr; nra).
    f_equal. unfold Rsqr. replace (r * r * (1 - z / r * (z / r))) with (r * r - z * z) by (field; lra).
    lra. }
  destruct (arctan2_polar y x) as [H1 H2]. cbn zeta in *.
  pairs.
  - rewrite <- H1 at 2. rewrite <- E. ring.
  - rewrite <- H2 at 2. rewrite <- E. ring.
  - field. lra.
Qed.

Lemma cart_sph_cart x y z p s :
  (x, y, z) <> (0, 0, 0) ->
  (s = true -> 10 * / 10 ^ 15 <= sqrt (x ^ 2 + y ^ 2 + z ^ 2)) ->
  exists azi zen r, cart2sph x y z p s = (azi, Some zen, r) /\
    sph2cart azi zen r = (x, y, z).
Proof.
  intros H0 Hs. set (r := sqrt (x ^ 2 + y ^ 2 + z ^ 2)).
  pose proof (cart2sph_zen x y z p s H0 Hs) as E. cbn zeta in E. fold r in E.
  assert (Hr : 0 < r) by (apply sqrt_lt_R0, sumsq_pos; auto).
  assert (Hrr : r * r = x ^ 2 + y ^ 2 + z ^ 2).
  { apply sqrt_sqrt. left. apply sumsq_pos; auto. }
  rewrite E. do 3 eexists. split; [reflexivity|].
  etransitivity; [|apply (sph_of_cart x y z r Hr Hrr)].
  destruct p; [|reflexivity]. unfold sph2cart.
  destruct (acos_pymod_cos (arctan2 y x)) as [-> ->]. reflexivity.
Qed.

Lemma cart2sph_ranges x y z p s azi zen r :
  cart2sph x y z p s = (azi, zen, r) ->
  (if p then 0 <= azi < 2 * PI else - PI < azi <= PI) /\
  0 <= r /\ r * r = x * x + y * y + z * z /\
  match zen with
  | Some t => 0 <= t <= PI
  | None => s = false /\ (x, y, z) = (0, 0, 0)
  end.
Proof.
  unfold cart2sph. set (r0 := sqrt (x ^ 2 + y ^ 2 + z ^ 2)).
  assert (Hrr : r0 * r0 = x ^ 2 + y ^ 2 + z ^ 2) by (apply sqrt_sqrt; nra).
  assert (Hr0 : 0 <= r0) by apply sqrt_pos.
  intros [= <- Hz <-]. pose proof PI_RGT_0 as HP.
  split; [destruct p; [apply pymod_range; lra | apply arctan2_range]|].
  split; [auto|]. split; [lra|].
  destruct s; cbn [negb] in Hz.
  - assert (Hp : 0 < clip_lo (10 * / 10 ^ 15) r0).
    { unfold clip_lo. eapply Rlt_le_trans; [|apply Rmax_l].
      apply Rmult_lt_0_compat; [lra|]. apply Rinv_0_lt_compat, pow_lt. lra. }
    rewrite np_div_ok in Hz by (apply Rgt_not_eq, Hp). cbn [obind] in Hz.
    assert (r0 <= clip_lo (10 * / 10 ^ 15) r0) by apply Rmax_r.
    rewrite np_acos_ok in Hz.
    + subst zen. apply acos_bound.
    + apply quot_bound with (clip_lo (10 * / 10 ^ 15) r0); [auto| |auto].
      set (c := clip_lo (10 * / 10 ^ 15) r0) in *. clearbody c.
      assert (z * z <= r0 * r0) by nra. assert (r0 * r0 <= c * c) by nra. lra.
  - destruct (Req_dec r0 0) as [E|E].
    + assert ((x, y, z) = (0, 0, 0)) as E3.
      { rewrite E in Hrr. assert (x = 0) by nra. assert (y = 0) by nra. assert (z = 0) by nra.
        congruence. }
      unfold np_div in Hz. replace (Reqb r0 0) with true in Hz by (symmetry; apply Reqb_true; auto).
      cbn in Hz. subst zen. auto.
    + rewrite np_div_ok in Hz by auto. cbn [obind] in Hz.
      rewrite np_acos_ok in Hz by (apply quot_bound with r0; nra).
      subst zen. apply acos_bound.
Qed.

Lemma norm_sph2cart azi zen r x y z :
  sph2cart azi zen r = (x, y, z) -> x ^ 2 + y ^ 2 + z ^ 2 = r * r.
Proof.
  unfold sph2cart. intros [= <- <- <-].
  pose proof (sin2_cos2 azi) as H1. pose proof (sin2_cos2 zen) as H2. unfold Rsqr in *.
  replace ((r * cos azi * sin zen) ^ 2 + (r * sin azi * sin zen) ^ 2 + (r * cos zen) ^ 2)
    with (r * r * ((sin azi * sin azi + cos azi * cos azi) * (sin zen * sin zen) + cos zen * cos zen))
    by ring.
  rewrite H1. replace (1 * (sin zen * sin zen) + cos zen * cos zen) with 1 by lra. ring.
Qed.

Lemma sph_cart_sph azi zen r s :
  - PI < azi <= PI -> 0 < zen < PI -> 0 < r -> (s = true -> 10 * / 10 ^ 15 <= r) ->
  let '(x, y, z) := sph2cart azi zen r in
  cart2sph x y z false s = (azi, Some zen, r).
Proof.
  intros Ha Hz Hr Hs. destruct (sph2cart azi zen r) as [[x y] z] eqn:E.
  pose proof (norm_sph2cart _ _ _ _ _ _ E) as HN.
  assert (HR : sqrt (x ^ 2 + y ^ 2 + z ^ 2) = r) by (rewrite HN; apply sqrt_square; lra).
  rewrite cart2sph_zen.
  - rewrite HR. unfold sph2cart in E. injection E as <- <- <-.
    assert (0 < sin zen) by (apply sin_gt_0; lra).
    pairs; [| |reflexivity].
    + apply arctan2_unique with (r * sin zen); [nra|lra|ring|ring].
    + f_equal. apply acos_unique; [lra|]. field. lra.
  - intros [= -> -> ->]. nra.
  - rewrite HR. auto.
Qed.

Lemma cart2dir_cart2sph x y z :
  cart2dir x y z = fst (cart2sph x y z false false).
Proof.
  unfold cart2dir, cart2sph. cbn [negb fst]. unfold Rsqr.
  replace (x ^ 2 + y ^ 2 + z ^ 2) with (x * x + y * y + z * z) by ring. reflexivity.
Qed.

Lemma dir2cart_sph2cart azi zen : dir2cart azi zen = sph2cart azi zen 1.
Proof. unfold dir2cart, sph2cart. pairs; ring. Qed.

Lemma matlab_is_sph2cart az el r : matlab_sph2cart az el r = sph2cart az (PI / 2 - el) r.
Proof.
  unfold matlab_sph2cart, sph2cart. rewrite sin_shift, cos_shift.
  pairs; ring.
Qed.

(** ** C02 *)
Lemma dir2cart_unit a z : dot3 (dir2cart a z) (dir2cart a z) = 1.
Proof.
  unfold dir2cart. v3. pose proof (sin2_cos2 a) as H1. pose proof (sin2_cos2 z) as H2.
  unfold Rsqr in *.
  replace (cos a * sin z * (cos a * sin z) + sin a * sin z * (sin a * sin z) + cos z * cos z)
    with ((sin a * sin a + cos a * cos a) * (sin z * sin z) + cos z * cos z) by ring.
  rewrite H1. lra.
Qed.

Lemma dir2cart_norm a z : norm3 (dir2cart a z) = 1.
Proof. unfold norm3. rewrite dir2cart_unit. apply sqrt_1. Qed.

Lemma unit_dot_bound u v : dot3 u u = 1 -> dot3 v v = 1 -> -1 <= dot3 u v <= 1.
Proof. intros Hu Hv. pose proof (dot3_cs u v) as H. rewrite Hu, Hv in H. nra. Qed.

Lemma hav_alpha a1 z1 a2 z2 :
  sin (((PI / 2 - z2) - (PI / 2 - z1)) / 2) ^ 2
  + cos (PI / 2 - z1) * cos (PI / 2 - z2) * sin ((a2 - a1) / 2) ^ 2
  = (1 - dot3 (dir2cart a1 z1) (dir2cart a2 z2)) / 2.
Proof.
  assert (H : forall t, sin (t / 2) ^ 2 = (1 - cos t) / 2).
  { intros t. replace t with (2 * (t / 2)) at 2 by field. rewrite cos_2a_sin. field. }
  rewrite !H. rewrite !cos_shift.
  replace (PI / 2 - z2 - (PI / 2 - z1)) with (z1 - z2) by ring.
  rewrite !cos_minus. unfold dir2cart. v3. field.
Qed.

Lemma sqrt_le1 x : x <= 1 -> sqrt x <= 1.
Proof.
  intros H. apply Rle_trans with (sqrt 1); [apply sqrt_le_1_alt; lra | rewrite sqrt_1; lra].
Qed.

Lemma half_acos d : -1 <= d <= 1 -> 2 * asin (sqrt ((1 - d) / 2)) = acos d.
Proof.
  intros Hd. symmetry. apply acos_unique.
  - assert (0 <= asin (sqrt ((1 - d) / 2)) <= PI / 2); [|lra].
    split; [|apply asin_bound].
    assert (Hs : 0 <= sqrt ((1 - d) / 2) <= 1).
    { split; [apply sqrt_pos|]. apply sqrt_le1. lra. }
    destruct (Rle_lt_dec 0 (asin (sqrt ((1 - d) / 2)))) as [H|H]; auto. exfalso.
    assert (sin (asin (sqrt ((1 - d) / 2))) < 0).
    { apply sin_lt_0_var; auto. pose proof (asin_bound (sqrt ((1 - d) / 2))).
      pose proof PI_RGT_0. lra. }
    rewrite sin_asin in H0 by lra. lra.
  - rewrite cos_2a_sin. rewrite sin_asin.
    + rewrite Rmult_assoc, sqrt_sqrt by lra. field.
    + split; [apply Rle_trans with 0; [lra|apply sqrt_pos]|].
      apply sqrt_le1. lra.
Qed.

Lemma haversine_acos a1 z1 a2 z2 r :
  haversine a1 z1 a2 z2 r = Some (r * acos (dot3 (dir2cart a1 z1) (dir2cart a2 z2))).
Proof.
  unfold haversine. rewrite hav_alpha.
  pose proof (unit_dot_bound _ _ (dir2cart_unit a1 z1) (dir2cart_unit a2 z2)) as Hd.
  set (d := dot3 (dir2cart a1 z1) (dir2cart a2 z2)) in *. clearbody d.
  replace (Rltb ((1 - d) / 2) 0) with false by (symmetry; apply Rltb_false; lra).
  rewrite np_asin_ok.
  - cbn [obind]. rewrite <- half_acos by auto. f_equal. ring.
  - split; [apply Rle_trans with 0; [lra|apply sqrt_pos]|].
    apply sqrt_le1. lra.
Qed.

Lemma angle_between_unit u v :
  norm3 u = 1 -> norm3 v = 1 -> angle_between u v None = Some (acos (dot3 u v)).
Proof.
  intros Hu Hv. unfold angle_between. rewrite Hu, Hv. rewrite np_div_ok by lra.
  cbn [obind]. replace (dot3 u v / (1 * 1)) with (dot3 u v) by field.
  assert (-1 <= dot3 u v <= 1) by (apply unit_dot_bound; rewrite <- norm3_sq; [rewrite Hu|rewrite Hv]; ring).
  unfold clip. rewrite Rmax_right by lra. rewrite Rmin_right by lra. apply np_acos_ok. auto.
Qed.

Lemma dot_norm_quot u v : u <> (0,0,0) -> v <> (0,0,0) ->
  -1 <= dot3 u v / (norm3 u * norm3 v) <= 1.
Proof.
  intros Hu Hv. apply norm3_pos in Hu, Hv.
  apply quot_bound with (norm3 u * norm3 v); auto.
  - apply Rmult_lt_0_compat; auto.
  - pose proof (dot3_cs u v). rewrite <- !norm3_sq in H. nra.
Qed.

Lemma angle_between_spec u v vi :
  let o := match vi with Some o => o | None => (0, 0, 0) end in
  u <> o -> v <> o ->
  exists th, angle_between u v vi = Some th /\ is_angle th (sub3 u o) (sub3 v o).
Proof.
  cbn zeta. intros Hu Hv.
  assert (G : forall u v, u <> (0,0,0) -> v <> (0,0,0) ->
     exists th, obind (np_div (dot3 u v) (norm3 u * norm3 v))
        (fun a => np_acos (clip (-1) 1 a)) = Some th /\ is_angle th u v).
  { clear. intros u v Hu Hv. pose proof (dot_norm_quot u v Hu Hv) as Hb.
    apply norm3_pos in Hu, Hv.
    rewrite np_div_ok by nra. cbn [obind].
    unfold clip. rewrite Rmax_right by lra. rewrite Rmin_right by lra.
    rewrite np_acos_ok by auto. eexists. split; [reflexivity|].
    split; [apply acos_bound|]. rewrite cos_acos by auto. field. nra. }
  assert (S0 : forall a b : V3, a <> b -> sub3 a b <> (0, 0, 0)).
  { intros [[a1 a2] a3] [[b1 b2] b3] H E. v3. injection E as E1 E2 E3. apply H.
    pairs; lra. }
  unfold angle_between. destruct vi as [o|].
  - apply G; apply S0; auto.
  - assert (sub3 u (0,0,0) = u /\ sub3 v (0,0,0) = v) as [-> ->].
    { destruct u as [[? ?] ?], v as [[? ?] ?]. v3. split; pairs; ring. }
    apply G; auto.
Qed.

(** the angular distance satisfies the triangle inequality *)
Lemma unit_triangle u v w :
  dot3 u u = 1 -> dot3 v v = 1 -> dot3 w w = 1 ->
  acos (dot3 u w) <= acos (dot3 u v) + acos (dot3 v w).
Proof.
  intros Hu Hv Hw.
  pose proof (unit_dot_bound u v Hu Hv) as B1. pose proof (unit_dot_bound v w Hv Hw) as B2.
  pose proof (unit_dot_bound u w Hu Hw) as B3.
  pose proof (acos_bound (dot3 u v)) as A1. pose proof (acos_bound (dot3 v w)) as A2.
  pose proof (acos_bound (dot3 u w)) as A3.
  destruct (Rle_lt_dec (acos (dot3 u v) + acos (dot3 v w)) PI) as [H|H]; [|lra].
  apply Rnot_lt_le. intros HL.
  assert (HC : cos (acos (dot3 u w)) < cos (acos (dot3 u v) + acos (dot3 v w)))
    by (apply cos_decreasing_1; lra).
  rewrite cos_plus, !cos_acos, !sin_acos in HC by auto.
  set (a := dot3 u v) in *. set (b := dot3 v w) in *. set (c := dot3 u w) in *.
  assert (E : dot3 (cross3 u v) (cross3 v w) = a * b - c * 1).
  { rewrite <- Hv. unfold a, b, c. v3. ring. }
  pose proof (dot3_cs (cross3 u v) (cross3 v w)) as CS.
  rewrite E, !lagrange_id in CS. fold a b in CS. rewrite Hu, Hv, Hw in CS.
  assert (0 <= sqrt (1 - a²) * sqrt (1 - b²)) by (apply Rmult_le_pos; apply sqrt_pos).
  assert (sqrt (1 - a²) * sqrt (1 - b²) * (sqrt (1 - a²) * sqrt (1 - b²)) = (1 - a * a) * (1 - b * b)).
  { replace (sqrt (1 - a²) * sqrt (1 - b²) * (sqrt (1 - a²) * sqrt (1 - b²)))
      with ((sqrt (1 - a²) * sqrt (1 - a²)) * (sqrt (1 - b²) * sqrt (1 - b²))) by ring.
    rewrite !sqrt_sqrt by (unfold Rsqr; nra). unfold Rsqr. reflexivity. }
  nra.
Qed.

Lemma acos_0_iff d : -1 <= d <= 1 -> (acos d = 0 <-> d = 1).
Proof.
  intros H. split.
  - intros E. rewrite <- (cos_acos d H), E. apply cos_0.
  - intros ->. apply acos_1.
Qed.

Lemma unit_dot_1 u v : dot3 u u = 1 -> dot3 v v = 1 -> dot3 u v = 1 -> u = v.
Proof.
  intros Hu Hv Huv. destruct u as [[u1 u2] u3], v as [[v1 v2] v3']. v3.
  assert ((u1 - v1) * (u1 - v1) + (u2 - v2) * (u2 - v2) + (u3 - v3') * (u3 - v3') = 0) by nra.
  pose proof (dot3_self_0 (u1 - v1, u2 - v2, u3 - v3')) as E. v3. apply E in H.
  injection H as H1 H2 H3. pairs; lra.
Qed.

(** ** C03-C05: rotations *)
Lemma mm3_mv3 a b v : mv3 (mm3 a b) v = mv3 a (mv3 b v).
Proof. v3. pairs; ring. Qed.

Lemma rotation_mm a b : is_rotation a -> is_rotation b -> is_rotation (mm3 a b).
Proof.
  intros [A1 A2] [B1 B2]. split; intros u v; rewrite !mm3_mv3.
  - rewrite A1, B1. reflexivity.
  - rewrite B2, A2. reflexivity.
Qed.

Lemma axis_rotations t : is_rotation (rot_Rx t) /\ is_rotation (rot_Ry t) /\ is_rotation (rot_Rz t).
Proof.
  unfold rot_Rx, rot_Ry, rot_Rz. pose proof (sin2_cos2 t) as H. unfold Rsqr in H.
  set (s := sin t) in *. set (c := cos t) in *. clearbody s c.
  assert (E : c * c = 1 - s * s) by lra.
  split; [|split]; split; intros [[u1 u2] u3] [[v1 v2] w3]; v3;
    try (pairs; ring [E]); ring [E].
Qed.

Lemma euler_rotation y p r : is_rotation (rotation_euler y p r).
Proof.
  unfold rotation_euler. repeat apply rotation_mm; apply axis_rotations.
Qed.

(** what [is_rotation] means for the matrix itself *)
Lemma rotation_orth m : is_rotation m -> mm3 (tr3 m) m = eye3 /\ mm3 m (tr3 m) = eye3 /\ det3 m = 1.
Proof.
  intros [H1 H2].
  assert (E : mm3 (tr3 m) m = eye3).
  { destruct m as [[[[m11 m12] m13] [[m21 m22] m23]] [[m31 m32] m33]].
    pose proof (H1 (1,0,0) (1,0,0)) as A11. pose proof (H1 (1,0,0) (0,1,0)) as A12.
    pose proof (H1 (1,0,0) (0,0,1)) as A13. pose proof (H1 (0,1,0) (0,1,0)) as A22.
    pose proof (H1 (0,1,0) (0,0,1)) as A23. pose proof (H1 (0,0,1) (0,0,1)) as A33.
    clear H1 H2. v3. pairs; lra. }
  assert (D : det3 m = 1).
  { destruct m as [[[[m11 m12] m13] [[m21 m22] m23]] [[m31 m32] m33]].
    pose proof (H1 (0,0,1) (0,0,1)) as A. pose proof (H2 (1,0,0) (0,1,0)) as B.
    clear H1 H2 E. v3. injection B as B1 B2 B3.
    ring_simplify in B1. ring_simplify in B2. ring_simplify in B3. ring_simplify in A.
    assert (E1 : m13 = m21 * m32 - m31 * m22) by lra.
    assert (E2 : m23 = m31 * m12 - m11 * m32) by lra.
    assert (E3 : m33 = m11 * m22 - m21 * m12) by lra.
    transitivity (m13 * (m21 * m32 - m31 * m22) + m23 * (m31 * m12 - m11 * m32)
                  + m33 * (m11 * m22 - m21 * m12)); [ring|].
    rewrite <- E1, <- E2, <- E3. rewrite <- A. ring. }
  split; [exact E|]. split; [|exact D].
  (* the adjugate: tr3 m is a left inverse and det is 1 *)
  destruct m as [[[[m11 m12] m13] [[m21 m22] m23]] [[m31 m32] m33]].
  pose proof (H2 (0,1,0) (0,0,1)) as B. pose proof (H2 (0,0,1) (1,0,0)) as B'.
  pose proof (H2 (1,0,0) (0,1,0)) as B''.
  clear H1 H2 E. v3.
  injection B as B1 B2 B3. injection B' as B4 B5 B6. injection B'' as B7 B8 B9.
  ring_simplify in B1. ring_simplify in B2. ring_simplify in B3.
  ring_simplify in B4. ring_simplify in B5. ring_simplify in B6.
  ring_simplify in B7. ring_simplify in B8. ring_simplify in B9.
  assert (E11 : m11 = m22 * m33 - m23 * m32) by lra.
  assert (E21 : m21 = m32 * m13 - m33 * m12) by lra.
  assert (E31 : m31 = m12 * m23 - m13 * m22) by lra.
  assert (E12 : m12 = m23 * m31 - m33 * m21) by lra.
  assert (E22 : m22 = m33 * m11 - m13 * m31) by lra.
  assert (E32 : m32 = m13 * m21 - m23 * m11) by lra.
  assert (E13 : m13 = m21 * m32 - m31 * m22) by lra.
  assert (E23 : m23 = m31 * m12 - m11 * m32) by lra.
  assert (E33 : m33 = m11 * m22 - m21 * m12) by lra.
  clear B1 B2 B3 B4 B5 B6 B7 B8 B9.
  pairs.
  - transitivity (m11 * (m22 * m33 - m23 * m32) + m12 * (m23 * m31 - m33 * m21) + m13 * (m21 * m32 - m31 * m22));
      [rewrite <- E11, <- E12, <- E13; ring | rewrite <- D; ring].
  - rewrite E11, E12, E13. ring.
  - rewrite E11, E12, E13. ring.
  - rewrite E21, E22, E23. ring.
  - transitivity (m21 * (m32 * m13 - m33 * m12) + m22 * (m33 * m11 - m13 * m31) + m23 * (m31 * m12 - m11 * m32));
      [rewrite <- E21, <- E22, <- E23; ring | rewrite <- D; ring].
  - rewrite E21, E22, E23. ring.
  - rewrite E31, E32, E33. ring.
  - rewrite E31, E32, E33. ring.
  - transitivity (m31 * (m12 * m23 - m13 * m22) + m32 * (m13 * m21 - m23 * m11) + m33 * (m11 * m22 - m21 * m12));
      [rewrite <- E31, <- E32, <- E33; ring | rewrite <- D; ring].
Qed.

Lemma rot_0 : rot_Rx 0 = eye3 /\ rot_Ry 0 = eye3 /\ rot_Rz 0 = eye3.
Proof.
  unfold rot_Rx, rot_Ry, rot_Rz, eye3. rewrite cos_0, sin_0, Ropp_0. auto.
Qed.
Lemma mm3_eye m : mm3 m eye3 = m /\ mm3 eye3 m = m.
Proof.
  destruct m as [[[[m11 m12] m13] [[m21 m22] m23]] [[m31 m32] m33]]. v3.
  split; pairs; ring.
Qed.
Lemma euler_axes t :
  rotation_euler t 0 0 = rot_Rz t /\ rotation_euler 0 t 0 = rot_Ry t /\
  rotation_euler 0 0 t = rot_Rx t.
Proof.
  unfold rotation_euler. destruct rot_0 as (-> & -> & ->).
  rewrite !(proj1 (mm3_eye _)), !(proj2 (mm3_eye _)). auto.
Qed.

Lemma euler_yaw y azi zen r :
  mv3 (rotation_euler y 0 0) (sph2cart azi zen r) = sph2cart (azi - y) zen r.
Proof.
  destruct (euler_axes y) as (-> & _ & _). unfold rot_Rz, sph2cart.
  rewrite cos_minus, sin_minus. v3. pairs; ring.
Qed.

Lemma euler_pitch p zen :
  mv3 (rotation_euler 0 p 0) (sph2cart 0 zen 1) = sph2cart 0 (zen - p) 1 /\
  forall t, mv3 (rotation_euler 0 p 0) (0, t, 0) = (0, t, 0).
Proof.
  destruct (euler_axes p) as (_ & -> & _). unfold rot_Ry, sph2cart.
  rewrite cos_minus, sin_minus, cos_0, sin_0. split; intros; v3; pairs; ring.
Qed.

Lemma euler_roll q zen :
  mv3 (rotation_euler 0 0 q) (sph2cart (PI / 2) zen 1) = sph2cart (PI / 2) (zen + q) 1 /\
  forall t, mv3 (rotation_euler 0 0 q) (t, 0, 0) = (t, 0, 0).
Proof.
  destruct (euler_axes q) as (_ & _ & ->). unfold rot_Rx, sph2cart.
  rewrite cos_plus, sin_plus, cos_PI2, sin_PI2. split; intros; v3; pairs; ring.
Qed.

Lemma euler_compose y p r v :
  mv3 (rotation_euler y p r) v =
  mv3 (rotation_euler y 0 0) (mv3 (rotation_euler 0 p 0) (mv3 (rotation_euler 0 0 r) v)).
Proof.
  rewrite (proj1 (euler_axes y)), (proj1 (proj2 (euler_axes p))), (proj2 (proj2 (euler_axes r))).
  unfold rotation_euler. rewrite !mm3_mv3. reflexivity.
Qed.

Lemma norm3_unit v : v <> (0,0,0) -> dot3 (unit3 v) (unit3 v) = 1.
Proof.
  intros H. unfold unit3. pose proof (norm3_sq v) as E. apply norm3_pos in H.
  replace (dot3 (scal3 (/ norm3 v) v) (scal3 (/ norm3 v) v))
    with (/ norm3 v * / norm3 v * dot3 v v) by (v3; ring).
  rewrite <- E. field. lra.
Qed.

Lemma mv3_madd a b v : mv3 (madd3 a b) v = add3 (mv3 a v) (mv3 b v).
Proof. v3. pairs; ring. Qed.
Lemma mv3_mscal s a v : mv3 (mscal3 s a) v = scal3 s (mv3 a v).
Proof. v3. pairs; ring. Qed.
Lemma mv3_eye v : mv3 eye3 v = v.
Proof. destruct v as [[? ?] ?]. v3. pairs; ring. Qed.
Lemma mv3_cross_matrix k v : mv3 (cross_matrix k) v = cross3 k v.
Proof. unfold cross_matrix. v3. pairs; ring. Qed.

Lemma rodrigues_turned k th m :
  k <> (0,0,0) -> 10 * / 10 ^ 10 < th -> rotation_rodrigues k th = Some m ->
  forall v, mv3 m v = turned (unit3 k) th v.
Proof.
  intros Hk Ht. unfold rotation_rodrigues.
  replace (Rltb (10 * / 10 ^ 10) th) with true by (symmetry; apply Rltb_true; auto).
  assert (Hn : norm3 k <> 0) by (apply Rgt_not_eq, norm3_pos; auto).
  replace (Reqb (norm3 k) 0) with false by (symmetry; apply Reqb_false; auto).
  fold (unit3 k). pose proof (norm3_unit k Hk) as Hu.
  set (u := unit3 k) in *. clearbody u. intros [= <-] v.
  rewrite !mv3_madd, mm3_mv3, !mv3_mscal, !mv3_cross_matrix, mv3_eye.
  destruct u as [[u1 u2] u3], v as [[v1 v2] w3]. unfold turned. v3.
  assert (E : u1 * u1 = 1 - u2 * u2 - u3 * u3) by lra.
  pairs; ring [E].
Qed.

Lemma rodrigues_some k th :
  k <> (0,0,0) -> exists m, rotation_rodrigues k th = Some m.
Proof.
  intros Hk. unfold rotation_rodrigues. destruct (Rltb _ th); [|eauto].
  replace (Reqb (norm3 k) 0) with false; [eauto|].
  symmetry. apply Reqb_false, Rgt_not_eq, norm3_pos. auto.
Qed.

Lemma turned_rotation m k th :
  dot3 k k = 1 -> (forall v, mv3 m v = turned k th v) -> is_rotation m.
Proof.
  intros Hk Hm. pose proof (sin2_cos2 th) as Ht. unfold Rsqr in Ht.
  split; intros u v; rewrite !Hm; unfold turned; clear Hm;
    destruct k as [[k1 k2] k3], u as [[u1 u2] u3], v as [[v1 v2] w3];
    set (s := sin th) in *; set (c := cos th) in *; clearbody s c; v3;
    assert (E : s * s = 1 - c * c) by lra; assert (E1 : k1 * k1 = 1 - k2 * k2 - k3 * k3) by lra.
  - ring [E E1].
  - pairs; ring [E E1].
Qed.

Lemma turned_unit_axis k th : dot3 k k = 1 -> turned k th k = k.
Proof.
  intros H. unfold turned. rewrite H. destruct k as [[? ?] ?]. v3. pairs; ring.
Qed.

Lemma eye_rotation : is_rotation eye3.
Proof. split; intros; rewrite !mv3_eye; reflexivity. Qed.

Lemma rodrigues_rotation k th m :
  k <> (0,0,0) -> rotation_rodrigues k th = Some m -> is_rotation m.
Proof.
  intros Hk Hm. destruct (Rlt_dec (10 * / 10 ^ 10) th) as [H|H].
  - apply turned_rotation with (unit3 k) th; [apply norm3_unit; auto|].
    apply rodrigues_turned; auto.
  - unfold rotation_rodrigues in Hm.
    replace (Rltb (10 * / 10 ^ 10) th) with false in Hm
      by (symmetry; apply Rltb_false; apply Rnot_lt_le; auto).
    injection Hm as <-. apply eye_rotation.
Qed.

Lemma rodrigues_small k th : th <= 10 * / 10 ^ 10 -> rotation_rodrigues k th = Some eye3.
Proof.
  intros H. unfold rotation_rodrigues.
  replace (Rltb (10 * / 10 ^ 10) th) with false by (symmetry; apply Rltb_false; auto).
  reflexivity.
Qed.

Lemma eps10_pos : 0 < 10 * / 10 ^ 10.
Proof. apply Rmult_lt_0_compat; [lra|]. apply Rinv_0_lt_compat, pow_lt. lra. Qed.
Lemma eps15_pos : 0 < 10 * / 10 ^ 15.
Proof. apply Rmult_lt_0_compat; [lra|]. apply Rinv_0_lt_compat, pow_lt. lra. Qed.
Lemma eps10_val : 10 * / 10 ^ 10 = / 1000000000.
Proof. simpl. lra. Qed.
Lemma eps15_val : 10 * / 10 ^ 15 = / 100000000000000.
Proof. simpl. lra. Qed.

(** rotating by a negative angle does not undo the rotation *)
Lemma rodrigues_neg : exists k th m m',
  k <> (0, 0, 0) /\ rotation_rodrigues k th = Some m /\
  rotation_rodrigues k (- th) = Some m' /\
  mv3 m' (mv3 m (1, 0, 0)) <> (1, 0, 0).
Proof.
  assert (Hk : (0, 0, 1) <> (0, 0, 0)) by (intros [=]; lra).
  pose proof PI_RGT_0 as HP. pose proof eps10_val as HE. pose proof PI2_3_2 as H32.
  assert (HL : 10 * / 10 ^ 10 < PI) by (rewrite HE; clear HE; lra).
  destruct (rodrigues_some (0, 0, 1) PI Hk) as [m Hm].
  exists (0, 0, 1), PI, m, eye3. split; auto. split; auto. split.
  - apply rodrigues_small. pose proof eps10_pos as H10. set (e := 10 * / 10 ^ 10) in *.
    clearbody e. lra.
  - rewrite mv3_eye. rewrite (rodrigues_turned _ _ _ Hk HL Hm).
    unfold turned. rewrite cos_PI, sin_PI.
    assert (unit3 (0, 0, 1) = (0, 0, 1)) as ->.
    { unfold unit3, norm3. v3. replace (0 * 0 + 0 * 0 + 1 * 1) with 1 by ring.
      rewrite sqrt_1. pairs; field. }
    v3. intros [= H]. lra.
Qed.

(** ** rotation_vecvec *)
Lemma acos_sin_norm f t :
  dot3 f f = 1 -> dot3 t t = 1 -> sin (acos (dot3 f t)) = norm3 (cross3 f t).
Proof.
  intros Hf Ht. pose proof (unit_dot_bound f t Hf Ht) as Hb. rewrite sin_acos by auto.
  unfold norm3. rewrite lagrange_id, Hf, Ht. f_equal. unfold Rsqr. ring.
Qed.

Lemma turned_maps f t :
  dot3 f f = 1 -> dot3 t t = 1 -> cross3 f t <> (0, 0, 0) ->
  turned (unit3 (cross3 f t)) (acos (dot3 f t)) f = t.
Proof.
  intros Hf Ht Hk. unfold turned, unit3.
  rewrite (acos_sin_norm f t Hf Ht), cos_acos by (apply unit_dot_bound; auto).
  apply norm3_pos in Hk. set (n := norm3 (cross3 f t)) in *. clearbody n.
  destruct f as [[f1 f2] f3], t as [[t1 t2] t3]. v3.
  assert (E : f1 * f1 = 1 - f2 * f2 - f3 * f3) by lra.
  assert (En : n * / n = 1) by (field; lra).
  set (i := / n) in *. clearbody i. pairs; ring [E En].
Qed.

Lemma vecvec_cases f t :
  f <> (0,0,0) -> t <> (0,0,0) ->
  let u := unit3 f in let w := unit3 t in
  (norm3 (cross3 u w) < 10 * / 10 ^ 15 /\ rotation_vecvec f t = Err ValueError) \/
  (10 * / 10 ^ 15 <= norm3 (cross3 u w) /\
   exists m, rotation_vecvec f t = Ok (Some m) /\ is_rotation m /\
     (10 * / 10 ^ 10 < acos (dot3 u w) -> mv3 m u = w) /\
     (acos (dot3 u w) <= 10 * / 10 ^ 10 -> m = eye3)).
Proof.
  intros Hf Ht u w.
  pose proof (norm3_unit f Hf) as Hu. pose proof (norm3_unit t Ht) as Hw. fold u in Hu. fold w in Hw.
  unfold rotation_vecvec.
  replace (Reqb (norm3 f) 0) with false by (symmetry; apply Reqb_false, Rgt_not_eq, norm3_pos; auto).
  replace (Reqb (norm3 t) 0) with false by (symmetry; apply Reqb_false, Rgt_not_eq, norm3_pos; auto).
  cbn [orb]. fold (unit3 f) (unit3 t). fold u w.
  destruct (Rltb (norm3 (cross3 u w)) (10 * / 10 ^ 15)) eqn:E;
    [apply Rltb_true in E; left; auto | apply Rltb_false in E; right].
  split; auto.
  rewrite np_acos_ok by (apply unit_dot_bound; auto). cbn [obind].
  assert (Hk : cross3 u w <> (0, 0, 0)).
  { intros E0. rewrite E0 in E. unfold norm3 in E. v3.
    replace (0 * 0 + 0 * 0 + 0 * 0) with 0 in E by ring. rewrite sqrt_0 in E.
    pose proof eps15_pos. apply (Rlt_irrefl 0). apply Rlt_le_trans with (1 := H). auto. }
  destruct (rodrigues_some (cross3 u w) (acos (dot3 u w)) Hk) as [m Hm].
  exists m. rewrite Hm. split; auto. split; [eapply rodrigues_rotation; eauto|]. split.
  - intros Hth. rewrite (rodrigues_turned _ _ _ Hk Hth Hm). apply turned_maps; auto.
  - intros Hth. rewrite rodrigues_small in Hm by auto. congruence.
Qed.

(** in every non-raising case the image of f is within 1e-9 of t *)
Lemma vecvec_close f t m :
  f <> (0,0,0) -> t <> (0,0,0) -> rotation_vecvec f t = Ok (Some m) ->
  norm3 (sub3 (mv3 m (unit3 f)) (unit3 t)) <= 10 * / 10 ^ 10.
Proof.
  intros Hf Ht Hm. pose proof (vecvec_cases f t Hf Ht) as H. cbn zeta in H.
  pose proof (norm3_unit f Hf) as Hu. pose proof (norm3_unit t Ht) as Hw.
  set (u := unit3 f) in *. set (w := unit3 t) in *. clearbody u w.
  destruct H as [[_ H]|[_ (m' & H & HR & H1 & H2)]]; [congruence|].
  assert (m' = m) as -> by congruence.
  set (e := 10 * / 10 ^ 10) in *. assert (He : 0 < e) by apply eps10_pos.
  destruct (Rlt_dec e (acos (dot3 u w))) as [Hth|Hth].
  - rewrite H1 by auto. unfold norm3.
    replace (dot3 (sub3 w w) (sub3 w w)) with 0 by (v3; ring). rewrite sqrt_0. lra.
  - rewrite H2 by lra. rewrite mv3_eye.
    pose proof (unit_dot_bound u w Hu Hw) as Hb.
    set (th := acos (dot3 u w)) in *.
    assert (Hc : dot3 u w = cos th) by (symmetry; apply cos_acos; auto).
    assert (E : dot3 (sub3 u w) (sub3 u w) = 2 * (1 - cos th)).
    { rewrite <- Hc. transitivity (dot3 u u + dot3 w w - 2 * dot3 u w); [v3; ring|].
      rewrite Hu, Hw. ring. }
    unfold norm3. rewrite E. rewrite <- (sqrt_square e) by lra. apply sqrt_le_1_alt.
    assert (H0 : 0 <= th <= PI) by apply acos_bound.
    replace th with (2 * (th / 2)) by field. rewrite cos_2a_sin.
    assert (Hs : 0 <= sin (th / 2) <= th / 2).
    { split; [apply sin_ge_0; lra|].
      destruct (proj1 H0) as [Hp|<-]; [left; apply sin_lt_x; lra|].
      replace (0 / 2) with 0 by field. rewrite sin_0. lra. }
    nra.
Qed.

(** ** C06 *)
Lemma deg2rad_range d : 0 <= deg2rad d < 2 * PI.
Proof.
  unfold deg2rad. pose proof (pymod_range d 360 ltac:(lra)). pose proof PI_RGT_0.
  split; [apply Rmult_le_pos; lra|]. nra.
Qed.
Lemma rad2deg_range r : 0 <= rad2deg r < 360.
Proof. apply pymod_range. lra. Qed.

Lemma deg2rad_congr d : congr (2 * PI) (deg2rad d) (d / 180 * PI).
Proof.
  unfold deg2rad. destruct (pymod_congr d 360 ltac:(lra)) as [k ->]. exists k. field.
Qed.
Lemma rad2deg_congr r : congr 360 (rad2deg r) (r / PI * 180).
Proof. apply pymod_congr. lra. Qed.

Lemma rad2deg_deg2rad d : rad2deg (deg2rad d) = pymod d 360.
Proof.
  unfold rad2deg. pose proof PI_RGT_0. apply pymod_eq_congr; [lra|].
  destruct (deg2rad_congr d) as [k ->]. exists k. field. lra.
Qed.
Lemma deg2rad_rad2deg r : deg2rad (rad2deg r) = pymod r (2 * PI).
Proof.
  pose proof PI_RGT_0. apply (congr_unique (2 * PI)); [lra| |apply deg2rad_range|apply pymod_range; lra].
  eapply congr_trans; [apply deg2rad_congr|].
  eapply congr_trans; [|apply congr_sym, pymod_congr; lra].
  destruct (rad2deg_congr r) as [k ->]. exists k. field. lra.
Qed.

Lemma deg2rad_periodic d k : deg2rad (d + 360 * IZR k) = deg2rad d.
Proof.
  unfold deg2rad. do 2 f_equal. apply pymod_eq_congr; [lra|]. exists k. ring.
Qed.
Lemma rad2deg_periodic r k : rad2deg (r + 2 * PI * IZR k) = rad2deg r.
Proof.
  pose proof PI_RGT_0. unfold rad2deg. apply pymod_eq_congr; [lra|]. exists k. field. lra.
Qed.

(** ** C07 *)
Lemma ln10_pos : 0 < ln 10.
Proof. rewrite <- ln_1. apply ln_increasing; lra. Qed.

Lemma from_db_db x p d : db x p = Some d -> from_db d p = Rabs x.
Proof.
  unfold db, from_db. destruct (Reqb (Rabs x) 0) eqn:E; [discriminate|]. apply Reqb_false in E.
  intros [= <-]. pose proof ln10_pos. pose proof (Rabs_pos x) as HA.
  unfold Rpower, log10.
  replace ((if p then 10 else 20) * (ln (Rabs x) / ln 10) / (if p then 10 else 20) * ln 10)
    with (ln (Rabs x)) by (destruct p; field; lra).
  apply exp_ln. lra.
Qed.

Lemma db_nonzero x p : x <> 0 -> exists d, db x p = Some d.
Proof.
  intros H. unfold db. replace (Reqb (Rabs x) 0) with false; [eauto|].
  symmetry. apply Reqb_false. apply Rabs_no_R0. auto.
Qed.

Lemma db_zero p : db 0 p = None.
Proof. unfold db. rewrite Rabs_R0. replace (Reqb 0 0) with true; auto. symmetry. apply Reqb_true. auto. Qed.

Lemma from_db_pos d p : 0 < from_db d p.
Proof. unfold from_db, Rpower. apply exp_pos. Qed.

Lemma db_from_db d p : db (from_db d p) p = Some d.
Proof.
  pose proof (from_db_pos d p) as H. pose proof ln10_pos as H10.
  unfold db. rewrite Rabs_pos_eq by lra.
  replace (Reqb (from_db d p) 0) with false by (symmetry; apply Reqb_false; lra).
  f_equal. unfold log10, from_db, Rpower. rewrite ln_exp. destruct p; field; lra.
Qed.

Lemma db_mult x y p dx dy :
  db x p = Some dx -> db y p = Some dy -> db (x * y) p = Some (dx + dy).
Proof.
  unfold db. rewrite Rabs_mult.
  destruct (Reqb (Rabs x) 0) eqn:Ex; [discriminate|]. apply Reqb_false in Ex.
  destruct (Reqb (Rabs y) 0) eqn:Ey; [discriminate|]. apply Reqb_false in Ey.
  pose proof (Rabs_pos x). pose proof (Rabs_pos y).
  replace (Reqb (Rabs x * Rabs y) 0) with false by (symmetry; apply Reqb_false; nra).
  intros [= <-] [= <-]. f_equal. unfold log10. rewrite ln_mult by lra.
  pose proof ln10_pos. destruct p; field; lra.
Qed.

Lemma db_swap x y p d : x <> 0 -> y <> 0 -> db (x / y) p = Some d -> db (y / x) p = Some (- d).
Proof.
  intros Hx Hy. unfold db.
  assert (Hxy : x / y <> 0).
  { unfold Rdiv. apply Rmult_integral_contrapositive_currified; auto. apply Rinv_neq_0_compat; auto. }
  replace (y / x) with (/ (x / y)) by (field; auto).
  rewrite Rabs_inv. set (q := x / y) in *. clearbody q.
  pose proof (Rabs_pos_lt q Hxy) as Hq.
  replace (Reqb (Rabs q) 0) with false by (symmetry; apply Reqb_false; lra).
  replace (Reqb (/ Rabs q) 0) with false by (symmetry; apply Reqb_false, Rinv_neq_0_compat; lra).
  intros [= <-]. f_equal. unfold log10. rewrite ln_Rinv by lra. pose proof ln10_pos.
  destruct p; field; lra.
Qed.

Lemma db_monotone x y p dx dy :
  db x p = Some dx -> db y p = Some dy -> Rabs x < Rabs y -> dx < dy.
Proof.
  intros Hx Hy H. rewrite <- (from_db_db _ _ _ Hx), <- (from_db_db _ _ _ Hy) in H.
  unfold from_db, Rpower in H. apply exp_lt_inv in H. pose proof ln10_pos.
  apply Rmult_lt_reg_r in H; auto. destruct p; lra.
Qed.
