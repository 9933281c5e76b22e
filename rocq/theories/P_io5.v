(** Layout files: angles, rounding, distances. *)
From Coq Require Import String.
From Verif Require Import Base BaseFacts M_utils S_utils M_sig M_process S_process M_decoder M_decoder2 M_io S_io P_utils P_proc4 P_sph13 P_dec6.
Open Scope R_scope.

(** ** degrees *)
Lemma cos_deg2rad d : cos (deg2rad d) = cos (d * (PI / 180)).
Proof. rewrite (cos_congr _ _ (deg2rad_congr d)). f_equal. field. Qed.
Lemma sin_deg2rad d : sin (deg2rad d) = sin (d * (PI / 180)).
Proof. rewrite (sin_congr _ _ (deg2rad_congr d)). f_equal. field. Qed.
Lemma position_place a e r : ls_position (a, (e, r)) = place a e r.
Proof.
  unfold ls_position, sph2cart, place. cbn [fst snd]. rewrite !cos_deg2rad, !sin_deg2rad.
  replace ((90 - e) * (PI / 180)) with (PI / 2 - e * (PI / 180)) by field. rewrite sin_shift, cos_shift. apply f_equal2; [apply f_equal2|]; ring.
Qed.
Lemma norm_place a e r : 0 <= r -> norm3 (place a e r) = r.
Proof.
  intro H. unfold norm3, dot3, place, vx, vy, vz. cbn [fst snd]. set (t := e * (PI / 180)). set (s := a * (PI / 180)).
  replace (_ + _) with (r * r * ((sin t)² + (cos t)² * ((sin s)² + (cos s)²))) by (unfold Rsqr; ring).
  rewrite !sin2_cos2, Rmult_1_r, sin2_cos2, Rmult_1_r. apply sqrt_square. exact H.
Qed.
Lemma frac_pos z c : 0 <= z -> 0 < c -> 0 <= z / c.
Proof. intros A B. apply Rmult_le_pos; [exact A|]. left. apply Rinv_0_lt_compat. exact B. Qed.
Lemma rad2deg_zen z : 0 <= z <= PI -> rad2deg z = z / PI * 180.
Proof.
  intro H. pose proof PI_RGT_0. unfold rad2deg. apply pymod_id; [lra|]. split.
  - apply Rmult_le_pos; [|lra]. apply frac_pos; lra.
  - apply Rle_lt_trans with 180; [|lra]. rewrite <- (Rmult_1_l 180) at 2. apply Rmult_le_compat_r; [lra|]. apply (Rmult_le_reg_r PI); [lra|]. unfold Rdiv. rewrite Rmult_assoc, Rinv_l by lra. lra.
Qed.
Lemma rad2deg_polar x : cos (rad2deg x * (PI / 180)) = cos x /\ sin (rad2deg x * (PI / 180)) = sin x.
Proof.
  pose proof PI_RGT_0. assert (C : congr (2 * PI) (rad2deg x * (PI / 180)) x).
  { destruct (rad2deg_congr x) as [k ->]. exists k. field. lra. }
  split; [apply cos_congr|apply sin_congr]; exact C.
Qed.
Lemma saved_angles (p : V3) : p <> (0, 0, 0) -> exists azi zen, cart2sph (vx p) (vy p) (vz p) false false = (azi, Some zen, norm3 p) /\
  p = place (rad2deg azi) (90 - rad2deg zen) (norm3 p) /\ 0 <= rad2deg azi < 360 /\ -90 <= 90 - rad2deg zen <= 90.
Proof.
  intro NZ. destruct (cart2sph_dir p NZ) as (azi & zen & E & Z0 & SP). exists azi, zen. split; [exact E|]. pose proof PI_RGT_0 as PP.
  split; [|split; [apply rad2deg_range|]].
  - rewrite <- SP at 1. unfold place. destruct (rad2deg_polar azi) as [C1 S1]. rewrite C1, S1, rad2deg_zen by exact Z0.
    replace ((90 - zen / PI * 180) * (PI / 180)) with (PI / 2 - zen) by (field; lra). rewrite cos_shift, sin_shift.
    unfold scal3, sph2cart, vx, vy, vz. cbn [fst snd]. apply f_equal2; [apply f_equal2|]; ring.
  - rewrite rad2deg_zen by exact Z0. assert (0 <= zen / PI <= 1); [|lra]. split; [apply frac_pos; lra|]. apply (Rmult_le_reg_r PI); [lra|]. unfold Rdiv. rewrite Rmult_assoc, Rinv_l by lra. lra.
Qed.
(** a point given by its angles is saved with these angles *)
Lemma saved_place a e r : 0 < r -> 0 <= a < 360 -> -90 < e < 90 \/ -90 <= e <= 90 /\ a = 0 ->
  exists azi zen, cart2sph (vx (place a e r)) (vy (place a e r)) (vz (place a e r)) false false = (azi, Some zen, r) /\
    rad2deg azi = a /\ 90 - rad2deg zen = e.
Proof.
  intros Hr Ha He. pose proof PI_RGT_0 as PP.
  assert (NZ : place a e r <> (0, 0, 0)). { intro Q. pose proof (norm_place a e r ltac:(lra)) as N. rewrite Q in N. unfold norm3, dot3, vx, vy, vz in N. cbn [fst snd] in N. replace (_ + _) with 0 in N by ring. rewrite sqrt_0 in N. lra. }
  destruct (saved_angles _ NZ) as (azi & zen & E & P & A & EL). exists azi, zen. rewrite norm_place in E, P by lra. split; [exact E|].
  set (a' := rad2deg azi) in *. set (e' := 90 - rad2deg zen) in *. unfold place in P. injection P as P1 P2 P3.
  set (u := PI / 180) in *. assert (U : 0 < u) by (unfold u; lra). assert (U180 : 180 * u = PI) by (unfold u; field).
  assert (SE : sin (e * u) = sin (e' * u)) by (apply (Rmult_eq_reg_l r); lra).
  assert (EE : e' = e).
  { assert (B : - (PI / 2) <= e * u <= PI / 2) by (rewrite <- U180; split; nra). assert (B' : - (PI / 2) <= e' * u <= PI / 2) by (rewrite <- U180; split; nra).
    destruct (Rtotal_order (e' * u) (e * u)) as [L|[L|L]].
    - pose proof (sin_increasing_1 (e' * u) (e * u) ltac:(lra) ltac:(lra) ltac:(lra) ltac:(lra) L). lra.
    - apply (Rmult_eq_reg_r u); lra.
    - pose proof (sin_increasing_1 (e * u) (e' * u) ltac:(lra) ltac:(lra) ltac:(lra) ltac:(lra) L). lra. }
  split; [|exact EE]. rewrite EE in *. destruct (Req_dec (cos (e * u)) 0) as [C0|C0].
  - destruct He as [He|[He ->]].
    + exfalso. pose proof (cos_gt_0 (e * u)) as C. assert (0 < cos (e * u)) by (apply C; rewrite <- U180; nra). lra.
    + assert (XY : vx (place 0 e r) = 0 /\ vy (place 0 e r) = 0) by (unfold place, vx, vy; cbn [fst snd]; fold u; rewrite C0; split; ring). destruct XY as [X Y].
      assert (AZ : azi = arctan2 0 0). { rewrite X, Y in E. unfold cart2sph in E. apply (f_equal (fun q => fst (fst q))) in E. cbn [fst] in E. symmetry. exact E. }
      unfold a'. rewrite AZ. unfold arctan2. rewrite (proj2 (Rltb_false 0 0)) by lra. unfold rad2deg. replace (0 / PI * 180) with 0 by (field; lra). apply pymod_id; lra.
  - assert (CC : cos (a * u) = cos (a' * u)) by (apply (Rmult_eq_reg_l (r * cos (e * u))); [lra|]; apply Rmult_integral_contrapositive; split; [lra|exact C0]).
    assert (SS : sin (a * u) = sin (a' * u)) by (apply (Rmult_eq_reg_l (r * cos (e * u))); [lra|]; apply Rmult_integral_contrapositive; split; [lra|exact C0]).
    assert (Q : a * u = a' * u). { apply cos_sin_unique; [exact CC|exact SS|]. rewrite <- U180. split; nra. }
    apply (Rmult_eq_reg_r u); lra.
Qed.

(** ** rounding *)
Lemma round2_rounded x : rounded x (round2 x).
Proof.
  unfold round2. split; [eauto|]. destruct (np_round_is_round (x * 100)) as [B _]. replace (IZR (np_round (x * 100)) / 100 - x) with ((IZR (np_round (x * 100)) - x * 100) / 100) by field.
  unfold Rdiv at 1. rewrite Rabs_mult, (Rabs_right (/ 100)) by lra. lra.
Qed.
Lemma round2_grid k : round2 (IZR k / 100) = IZR k / 100.
Proof.
  unfold round2. replace (IZR k / 100 * 100) with (IZR k) by field. f_equal. f_equal. unfold np_round. assert (F : zfloor (IZR k) = k).
  { unfold zfloor. destruct (base_Int_part (IZR k)) as [B1 B2]. apply le_IZR in B1. assert (IZR k < IZR (Int_part (IZR k) + 1)) by (rewrite plus_IZR; lra). apply lt_IZR in H. lia. }
  rewrite F. rewrite (proj2 (Rltb_true _ _)) by lra. reflexivity.
Qed.
Lemma abs_inv x b : Rabs x <= b -> - b <= x <= b.
Proof. intro H. pose proof (Rle_abs x) as A. pose proof (Rle_abs (- x)) as B. rewrite Rabs_Ropp in B. lra. Qed.
Lemma round2_mono x y : x <= y -> round2 x <= round2 y.
Proof.
  intro H. destruct (Rle_lt_dec (round2 x) (round2 y)) as [L|L]; [exact L|exfalso].
  destruct (round2_rounded x) as [[k Ek] Bx]. destruct (round2_rounded y) as [[m Em] By]. rewrite Ek, Em in *.
  assert (KM : (m < k)%Z) by (apply lt_IZR; lra). assert (IZR k >= IZR m + 1) by (rewrite <- plus_IZR; apply Rle_ge, IZR_le; lia).
  apply abs_inv in Bx. apply abs_inv in By. assert (EQ : x = y) by lra. subst y.
  pose proof (eq_trans (eq_sym Ek) Em). lra.
Qed.
Lemma round2_bound x z : IZR z <= x -> IZR z <= round2 x.
Proof. intro H. apply round2_mono in H. replace (IZR z) with (IZR (z * 100) / 100) in H at 1 by (rewrite mult_IZR; field). rewrite round2_grid, mult_IZR in H. lra. Qed.
Lemma round2_bound_up x z : x <= IZR z -> round2 x <= IZR z.
Proof. intro H. apply round2_mono in H. replace (IZR z) with (IZR (z * 100) / 100) in H at 1 by (rewrite mult_IZR; field). rewrite round2_grid, mult_IZR in H. lra. Qed.

(** ** distances *)
Lemma chord x y : (cos x - cos y) ^ 2 + (sin x - sin y) ^ 2 <= (x - y) ^ 2.
Proof.
  replace ((cos x - cos y) ^ 2 + (sin x - sin y) ^ 2) with (2 - 2 * cos (x - y)).
  2:{ rewrite cos_minus. pose proof (sin2_cos2 x) as A. pose proof (sin2_cos2 y) as B. unfold Rsqr in *. nra. }
  replace (x - y) with (2 * ((x - y) / 2)) at 1 by field. rewrite cos_2a_sin. set (t := (x - y) / 2).
  assert (S : Rabs (sin t) <= Rabs t).
  { assert (G : forall v, 0 <= v -> Rabs (sin v) <= v).
    { intros v [Hv|<-]; [|rewrite sin_0, Rabs_R0; lra]. apply Rabs_le. pose proof (SIN_bound v) as B. destruct (Rle_lt_dec 1 v) as [V|V]; [lra|]. split; [|left; apply sin_lt_x; exact Hv].
      assert (0 <= sin v); [|lra]. pose proof PI_RGT_0. apply sin_ge_0; [lra|]. pose proof PI2_3_2. lra. }
    destruct (Rle_lt_dec 0 t) as [T|T]; [rewrite (Rabs_pos_eq t T); apply G; exact T|].
    rewrite <- (Rabs_Ropp (sin t)), <- sin_neg, <- (Rabs_Ropp t), (Rabs_pos_eq (- t)) by lra. apply G. lra. }
  assert (sin t * sin t <= t * t). { rewrite <- (Rabs_right (sin t * sin t)), <- (Rabs_right (t * t)) by nra. rewrite !Rabs_mult. pose proof (Rabs_pos (sin t)). nra. }
  unfold t in *. nra.
Qed.
Lemma norm3_le (v : V3) b : 0 <= b -> dot3 v v <= b * b -> norm3 v <= b.
Proof. intros B H. unfold norm3. rewrite <- (sqrt_square b B). apply sqrt_le_1_alt. exact H. Qed.
Lemma dist_place a e r a' e' r' : 0 <= r -> 0 <= r' ->
  dist3 (place a' e' r') (place a e r) <= Rabs (r' - r) + r * (PI / 180) * (Rabs (a' - a) + Rabs (e' - e)).
Proof.
  intros Hr Hr'. pose proof PI_RGT_0 as PP. set (u := PI / 180). assert (U : 0 < u) by (unfold u; lra).
  assert (T : forall p q s : V3, dist3 p s <= dist3 p q + dist3 q s).
  { intros p q s. unfold dist3. replace (sub3 p s) with (add3 (sub3 p q) (sub3 q s)); [apply norm3_add|]. unfold add3, sub3, vx, vy, vz. cbn [fst snd]. apply f_equal2; [apply f_equal2|]; ring. }
  assert (A1 : dist3 (place a' e' r') (place a' e' r) <= Rabs (r' - r)).
  { apply norm3_le; [apply Rabs_pos|]. rewrite <- Rabs_mult, (Rabs_pos_eq ((r' - r) * (r' - r))) by apply (Rle_0_sqr (r' - r)). unfold dot3, sub3, place, vx, vy, vz. cbn [fst snd]. fold u.
    pose proof (sin2_cos2 (a' * u)) as X. pose proof (sin2_cos2 (e' * u)) as Y. unfold Rsqr in *.
    match goal with |- ?L <= _ => replace L with ((r' - r) * (r' - r) * (sin (e' * u) * sin (e' * u) + cos (e' * u) * cos (e' * u) * (sin (a' * u) * sin (a' * u) + cos (a' * u) * cos (a' * u)))) by ring end. rewrite X, Rmult_1_r, Y. lra. }
  assert (A2 : dist3 (place a' e' r) (place a e' r) <= r * u * Rabs (a' - a)).
  { apply norm3_le; [apply Rmult_le_pos; [nra|apply Rabs_pos]|].
    replace (r * u * Rabs (a' - a) * (r * u * Rabs (a' - a))) with (r * r * ((a' * u - a * u) ^ 2)).
    2:{ replace (r * u * Rabs (a' - a) * (r * u * Rabs (a' - a))) with (r * r * (u * u) * (Rabs (a' - a) * Rabs (a' - a))) by ring. rewrite <- Rabs_mult, (Rabs_pos_eq ((a' - a) * (a' - a))) by apply (Rle_0_sqr (a' - a)). ring. }
    unfold dot3, sub3, place, vx, vy, vz. cbn [fst snd]. fold u. pose proof (chord (a' * u) (a * u)) as C. pose proof (COS_bound (e' * u)) as B.
    set (D := (cos (a' * u) - cos (a * u)) ^ 2 + (sin (a' * u) - sin (a * u)) ^ 2) in *.
    match goal with |- ?L <= _ => replace L with (r * r * (cos (e' * u) * cos (e' * u) * D)) by (unfold D; ring) end.
    assert (D0 : 0 <= D) by (unfold D; apply Rplus_le_le_0_compat; apply pow2_ge_0). apply Rmult_le_compat_l; [apply (Rle_0_sqr r)|].
    assert (C1 : cos (e' * u) * cos (e' * u) <= 1) by (clear - B; nra). apply Rle_trans with (1 * D); [apply Rmult_le_compat_r; assumption|lra]. }
  assert (A3 : dist3 (place a e' r) (place a e r) <= r * u * Rabs (e' - e)).
  { apply norm3_le; [apply Rmult_le_pos; [nra|apply Rabs_pos]|].
    replace (r * u * Rabs (e' - e) * (r * u * Rabs (e' - e))) with (r * r * ((e' * u - e * u) ^ 2)).
    2:{ replace (r * u * Rabs (e' - e) * (r * u * Rabs (e' - e))) with (r * r * (u * u) * (Rabs (e' - e) * Rabs (e' - e))) by ring. rewrite <- Rabs_mult, (Rabs_pos_eq ((e' - e) * (e' - e))) by apply (Rle_0_sqr (e' - e)). ring. }
    unfold dot3, sub3, place, vx, vy, vz. cbn [fst snd]. fold u. pose proof (chord (e' * u) (e * u)) as C. pose proof (sin2_cos2 (a * u)) as X. unfold Rsqr in X.
    match goal with |- ?L <= _ => replace L with (r * r * ((cos (e' * u) - cos (e * u)) ^ 2 * (sin (a * u) * sin (a * u) + cos (a * u) * cos (a * u)) + (sin (e' * u) - sin (e * u)) ^ 2)) by ring end.
    rewrite X, Rmult_1_r. apply Rmult_le_compat_l; [apply (Rle_0_sqr r)|exact C]. }
  pose proof (T (place a' e' r') (place a' e' r) (place a e r)) as T1. pose proof (T (place a' e' r) (place a e' r) (place a e r)) as T2. lra.
Qed.
