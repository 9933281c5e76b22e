(** Recursions with all poles inside a circle, driven by decaying and by growing inputs. *)
From Coq Require Import Lra Lia Ring.
From Verif Require Import Base BaseFacts M_utils M_sig M_sph0 M_sph M_parsa3 M_process3 S_process3 M_zp S_zp P_lfilter P_proc1 P_cplx P_zp1 P_zp2 P_zp3 S_process4 P_sig M_process M_process4 P_ff1 P_ff2 P_ff3.
Open Scope R_scope.

Lemma geo_bound2 r v M1 M2 r1 r2 : 0 < r1 -> 0 < r2 -> cabs r < r1 -> cabs r < r2 -> 0 <= M1 -> 0 <= M2 -> (forall n, cabs (v n) <= M1 * r1 ^ n + M2 * r2 ^ n) ->
  forall n, cabs (geo r v n) <= M1 * (r1 / (r1 - cabs r)) * r1 ^ n + M2 * (r2 / (r2 - cabs r)) * r2 ^ n.
Proof.
  intros P1 P2 R1 R2 M10 M20 V. set (q1 := r1 / (r1 - cabs r)). set (q2 := r2 / (r2 - cabs r)). pose proof (cabs_ge0 r) as R0.
  assert (Q1 : 1 <= q1) by (unfold q1; apply (Rmult_le_reg_r (r1 - cabs r)); [lra|]; unfold Rdiv; rewrite Rmult_assoc, Rinv_l by lra; lra).
  assert (Q2 : 1 <= q2) by (unfold q2; apply (Rmult_le_reg_r (r2 - cabs r)); [lra|]; unfold Rdiv; rewrite Rmult_assoc, Rinv_l by lra; lra).
  assert (E1 : r1 + cabs r * q1 = r1 * q1) by (unfold q1; field; lra). assert (E2 : r2 + cabs r * q2 = r2 * q2) by (unfold q2; field; lra).
  induction n as [|n IH]; cbn [geo pow].
  - pose proof (V 0%nat) as V0. cbn [pow] in V0. nra.
  - eapply Rle_trans; [apply cabs_tri|]. rewrite cabs_mul. pose proof (V (S n)) as VS. cbn [pow] in VS. apply Rle_trans with ((M1 * (r1 * r1 ^ n) + M2 * (r2 * r2 ^ n)) + cabs r * (M1 * q1 * r1 ^ n + M2 * q2 * r2 ^ n)).
    + apply Rplus_le_compat; [exact VS|]. apply Rmult_le_compat_l; assumption.
    + right. replace (M1 * q1 * (r1 * r1 ^ n) + M2 * q2 * (r2 * r2 ^ n)) with (M1 * r1 ^ n * (r1 * q1) + M2 * r2 ^ n * (r2 * q2)) by ring. rewrite <- E1, <- E2. ring.
Qed.
Lemma casc_bound2 l r1 r2 : 0 < r1 -> 0 < r2 -> inside r1 l -> inside r2 l -> exists q1 q2, 0 <= q1 /\ 0 <= q2 /\ forall u M1 M2, 0 <= M1 -> 0 <= M2 -> (forall n, cabs (u n) <= M1 * r1 ^ n + M2 * r2 ^ n) -> forall n, cabs (casc l u n) <= M1 * q1 * r1 ^ n + M2 * q2 * r2 ^ n.
Proof.
  intros P1 P2. induction l as [|r l IH]; intros H1 H2; [exists 1, 1; repeat split; try lra; intros u M1 M2 M10 M20 U n; cbn [casc]; rewrite !Rmult_1_r; apply U|].
  destruct IH as (q1 & q2 & Q1 & Q2 & Q); [intros p I; apply H1; right; exact I|intros p I; apply H2; right; exact I|]. pose proof (H1 r (or_introl eq_refl)) as R1. pose proof (H2 r (or_introl eq_refl)) as R2. pose proof (cabs_ge0 r).
  exists (q1 * (r1 / (r1 - cabs r))), (q2 * (r2 / (r2 - cabs r))). split; [apply Rmult_le_pos; [exact Q1|]; left; apply Rdiv_lt_0_compat; lra|]. split; [apply Rmult_le_pos; [exact Q2|]; left; apply Rdiv_lt_0_compat; lra|].
  intros u M1 M2 M10 M20 U n. cbn [casc]. rewrite <- !Rmult_assoc. apply geo_bound2; try assumption; try (apply Rmult_le_pos; assumption). apply Q; assumption.
Qed.
Lemma rec_bound a l r1 r2 : nth 0 a 0 <> 0 -> all_roots a l -> 0 < r1 -> 0 < r2 -> inside r1 l -> inside r2 l ->
  exists Q, 0 <= Q /\ forall (y u : nat -> R) n M1 M2, 0 <= M1 -> 0 <= M2 -> (forall k, (k <= n)%nat -> cv (sq a) y k = u k) -> (forall k, (k <= n)%nat -> Rabs (u k) <= M1 * r1 ^ k + M2 * r2 ^ k) ->
    forall k, (k <= n)%nat -> Rabs (y k) <= Q * (M1 * r1 ^ k + M2 * r2 ^ k).
Proof.
  intros A [L P] P1 P2 I1 I2. destruct (first_not a A) as (c & t & -> & C). cbn [nth] in P. cbn [length] in L. rewrite Nat.sub_succ, Nat.sub_0_r in L. destruct (casc_bound2 l r1 r2 P1 P2 I1 I2) as (q1 & q2 & Q1 & Q2 & Q). pose proof (Rabs_pos_lt c C) as PC. pose proof (Rinv_0_lt_compat _ PC) as IC.
  exists ((q1 + q2) * / Rabs c). split; [apply Rmult_le_pos; lra|]. intros y u n M1 M2 M10 M20 Y U k K. rewrite <- cabs_cre. set (u' := fun k => if Nat.leb k n then u k else 0).
  rewrite (real_casc c t l y u' n C L P) by (first [exact K|intros j J; rewrite Y by exact J; unfold u'; destruct (Nat.leb_spec j n); [reflexivity|lia]]).
  assert (B : forall j, cabs (cre (u' j / c)) <= M1 * / Rabs c * r1 ^ j + M2 * / Rabs c * r2 ^ j).
  { intros j. rewrite cabs_cre. unfold Rdiv. rewrite Rabs_mult, Rabs_inv. pose proof (pow_lt r1 j P1). pose proof (pow_lt r2 j P2). replace (M1 * / Rabs c * r1 ^ j + M2 * / Rabs c * r2 ^ j) with ((M1 * r1 ^ j + M2 * r2 ^ j) * / Rabs c) by ring. apply Rmult_le_compat_r; [lra|]. unfold u'. destruct (Nat.leb_spec j n) as [J|J]; [apply U; exact J|]. rewrite Rabs_R0. pose proof (Rmult_le_pos _ _ M10 (Rlt_le _ _ H)). pose proof (Rmult_le_pos _ _ M20 (Rlt_le _ _ H0)). lra. }
  eapply Rle_trans; [apply (Q _ (M1 * / Rabs c) (M2 * / Rabs c)); try (apply Rmult_le_pos; lra); exact B|]. pose proof (pow_lt r1 k P1). pose proof (pow_lt r2 k P2). pose proof (Rmult_le_pos _ _ M10 (Rlt_le _ _ H)) as X1. pose proof (Rmult_le_pos _ _ M20 (Rlt_le _ _ H0)) as X2.
  replace (M1 * / Rabs c * q1 * r1 ^ k + M2 * / Rabs c * q2 * r2 ^ k) with (/ Rabs c * (q1 * (M1 * r1 ^ k) + q2 * (M2 * r2 ^ k))) by ring. replace ((q1 + q2) * / Rabs c * (M1 * r1 ^ k + M2 * r2 ^ k)) with (/ Rabs c * ((q1 + q2) * (M1 * r1 ^ k + M2 * r2 ^ k))) by ring. apply Rmult_le_compat_l; [lra|]. nra.
Qed.

(** ** a sequence over all integers, split at zero *)
Lemma taps_nat p f n : taps p f (Z.of_nat n) = cv (sq p) (fun k => f (Z.of_nat k)) n + rsum (length p - S n) (fun j => nth (S n + j) p 0 * f (- Z.of_nat (S j))%Z).
Proof.
  unfold taps, cv, sq. destruct (Nat.le_gt_cases (length p) (S n)) as [H|H].
  - replace (length p - S n)%nat with 0%nat by lia. change (rsum 0 _) with 0. rewrite Rplus_0_r. replace (S n) with (length p + (S n - length p))%nat by lia. rewrite rsum_app. rewrite (rsum_0 (S n - length p)) by (intros i I; rewrite (nth_overflow p) by lia; ring). rewrite Rplus_0_r. apply rsum_ext. intros k K. replace (Z.of_nat (n - k)) with (Z.of_nat n - Z.of_nat k)%Z by lia. reflexivity.
  - replace (length p) with (S n + (length p - S n))%nat at 1 by lia. rewrite rsum_app. f_equal.
    + apply rsum_ext. intros k K. replace (Z.of_nat (n - k)) with (Z.of_nat n - Z.of_nat k)%Z by lia. reflexivity.
    + apply rsum_ext. intros k K. replace (- Z.of_nat (S k))%Z with (Z.of_nat n - Z.of_nat (S n + k))%Z by lia. reflexivity.
Qed.
Definition asum (p : list R) : R := rsum (length p) (fun k => Rabs (nth k p 0)).
Lemma asum_ge0 p : 0 <= asum p.
Proof. apply rsum_nonneg. intros. apply Rabs_pos. Qed.
Lemma taps_bound p f n V : 0 <= V -> (forall k, (k < length p)%nat -> Rabs (f (n - Z.of_nat k)%Z) <= V) -> Rabs (taps p f n) <= asum p * V.
Proof.
  intros V0 H. unfold taps, asum. rewrite <- rsum_scal_r. eapply Rle_trans; [apply rsum_abs|]. apply rsum_le. intros k K. rewrite Rabs_mult. apply Rmult_le_compat_l; [apply Rabs_pos|apply H; exact K].
Qed.
Lemma past_bound p f n V : 0 <= V -> (forall m, (m < 0)%Z -> Rabs (f m) <= V) -> Rabs (rsum (length p - S n) (fun j => nth (S n + j) p 0 * f (- Z.of_nat (S j))%Z)) <= asum p * V.
Proof.
  intros V0 H. destruct (Nat.le_gt_cases (length p) (S n)) as [G|G]; [replace (length p - S n)%nat with 0%nat by lia; cbn [rsum]; rewrite Rabs_R0; apply Rmult_le_pos; [apply asum_ge0|exact V0]|].
  eapply Rle_trans; [apply rsum_abs|]. apply Rle_trans with (rsum (length p - S n) (fun j => Rabs (nth (S n + j) p 0) * V)).
  - apply rsum_le. intros j J. rewrite Rabs_mult. apply Rmult_le_compat_l; [apply Rabs_pos|apply H; lia].
  - rewrite rsum_scal_r. apply Rmult_le_compat_r; [exact V0|]. unfold asum. replace (length p) with (S n + (length p - S n))%nat at 2 by lia. rewrite rsum_app. assert (0 <= rsum (S n) (fun k => Rabs (nth k p 0))) by (apply rsum_nonneg; intros; apply Rabs_pos). lra.
Qed.
Lemma taps_minus p f g n : taps p (fun m => f m - g m) n = taps p f n - taps p g n.
Proof. unfold taps. rewrite (rsum_ext (length p) _ (fun k => nth k p 0 * f (n - Z.of_nat k)%Z + -1 * (nth k p 0 * g (n - Z.of_nat k)%Z))) by (intros; ring). rewrite rsum_plus, rsum_scal. ring. Qed.
(** ** sinusoids through tapped delays *)
Definition pc (p : list R) (t : R) : R := rsum (length p) (fun k => nth k p 0 * cos (INR k * t)).
Definition ps (p : list R) (t : R) : R := rsum (length p) (fun k => nth k p 0 * sin (INR k * t)).
Lemma taps_wave p t h k f n : taps p (fun m => h * cos (t * IZR m + f) + k * sin (t * IZR m + f)) n = (h * pc p t - k * ps p t) * cos (t * IZR n + f) + (h * ps p t + k * pc p t) * sin (t * IZR n + f).
Proof.
  unfold taps, pc, ps. set (C := cos (t * IZR n + f)). set (S := sin (t * IZR n + f)).
  rewrite (rsum_ext (length p) _ (fun j => (h * C + k * S) * (nth j p 0 * cos (INR j * t)) + (h * S - k * C) * (nth j p 0 * sin (INR j * t)))).
  - rewrite rsum_plus, !rsum_scal. ring.
  - intros j J. rewrite minus_IZR, <- INR_IZR_INZ. replace (t * (IZR n - INR j) + f) with ((t * IZR n + f) - INR j * t) by ring. rewrite cos_minus, sin_minus. fold C S. ring.
Qed.
Lemma power_pc p t : power p t = pc p t ^ 2 + ps p t ^ 2.
Proof. unfold power, response, pc, ps. cbn [fst snd]. ring. Qed.
Lemma pc_neg p t : pc p (- t) = pc p t.
Proof. apply rsum_ext. intros k K. replace (INR k * - t) with (- (INR k * t)) by ring. rewrite cos_neg. reflexivity. Qed.
Lemma ps_neg p t : ps p (- t) = - ps p t.
Proof. unfold ps. rewrite <- (Rmult_1_l (rsum _ _)) at 1. rewrite (rsum_ext (length p) _ (fun k => -1 * (nth k p 0 * sin (INR k * t)))) by (intros k K; replace (INR k * - t) with (- (INR k * t)) by ring; rewrite sin_neg; ring). rewrite rsum_scal. ring. Qed.
(** the response on the circle is bounded away from zero *)
Lemma poly_resp p t : p <> [] -> cmul (cpow (cos t, sin t) (length p - 1)) (pc p t, - ps p t) = polynomial p (cos t, sin t).
Proof.
  intros P. assert (W : cmul (cos t, sin t) (cos t, - sin t) = cre 1). { unfold cmul, cre. cbn [fst snd]. f_equal; [|ring]. pose proof (sin2_cos2 t) as H. unfold Rsqr in H. lra. }
  rewrite <- (poly_inverse p (cos t, sin t) (cos t, - sin t) W P). f_equal.
  assert (E : forall k, cpow (cos t, - sin t) k = (cos (INR k * t), - sin (INR k * t))). { induction k as [|k IH]; [cbn [cpow]; rewrite Rmult_0_l, cos_0, sin_0, Ropp_0; reflexivity|]. cbn [cpow]. rewrite IH, S_INR. unfold cmul. cbn [fst snd]. replace ((INR k + 1) * t) with (t + INR k * t) by ring. rewrite cos_plus, sin_plus. f_equal; ring. }
  rewrite (csum_ext' (length p) _ (fun k => (nth k p 0 * cos (INR k * t), nth k p 0 * - sin (INR k * t)))) by (intros k K; rewrite E; unfold cmul, cre; cbn [fst snd]; f_equal; ring).
  unfold csum. cbn [fst snd]. f_equal. unfold ps. replace (- rsum (length p) (fun k => nth k p 0 * sin (INR k * t))) with (-1 * rsum (length p) (fun k => nth k p 0 * sin (INR k * t))) by ring. rewrite <- rsum_scal. apply rsum_ext. intros. ring.
Qed.
Lemma unit_abs t : cabs (cos t, sin t) = 1.
Proof. apply sq_eq_pos; [apply cabs_ge0|lra|]. rewrite cabs_sq. cbn [fst snd]. pose proof (sin2_cos2 t) as H. unfold Rsqr in H. lra. Qed.
Lemma product_lower l (z : C2) rho : cabs z = 1 -> rho <= 1 -> inside rho l -> (1 - rho) ^ length l <= cabs (product l z).
Proof.
  intros Z Hr. induction l as [|r l IH]; intros H; [cbn [length pow]; rewrite product_nil, cabs_cre, Rabs_R1; lra|]. rewrite product_cons, cabs_mul. cbn [length pow]. pose proof (H r (or_introl eq_refl)) as HR. apply Rmult_le_compat; [lra|apply pow_le; lra| |apply IH; intros p I; apply H; right; exact I].
  pose proof (cabs_tri (csub z r) r) as T. replace (cadd (csub z r) r) with z in T by ring. lra.
Qed.
Lemma power_lower a l rho t : nth 0 a 0 <> 0 -> all_roots a l -> rho < 1 -> inside rho l -> (Rabs (nth 0 a 0) * (1 - rho) ^ length l) ^ 2 <= power a t.
Proof.
  intros A [L P] Hr I. assert (NE : a <> []) by (destruct a; [cbn in A; lra|discriminate]). rewrite power_pc. pose proof (poly_resp a t NE) as E. apply (f_equal cabs) in E. rewrite cabs_mul, cabs_pow, unit_abs, pow1, Rmult_1_l, P, cscal_mul, cabs_mul, cabs_cre in E.
  assert (Q : pc a t ^ 2 + ps a t ^ 2 = cabs (pc a t, - ps a t) * cabs (pc a t, - ps a t)) by (rewrite cabs_sq; cbn [fst snd]; ring). rewrite Q, E. cbn [pow]. rewrite Rmult_1_r. pose proof (product_lower l (cos t, sin t) rho (unit_abs t) ltac:(lra) I) as B. pose proof (Rabs_pos (nth 0 a 0)). assert (0 <= (1 - rho) ^ length l) by (apply pow_le; lra). assert (0 <= Rabs (nth 0 a 0) * (1 - rho) ^ length l) by (apply Rmult_le_pos; assumption). assert (Rabs (nth 0 a 0) * (1 - rho) ^ length l <= Rabs (nth 0 a 0) * cabs (product l (cos t, sin t))) by (apply Rmult_le_compat_l; assumption). apply Rmult_le_compat; assumption.
Qed.
Lemma pc_bound p t : Rabs (pc p t) <= asum p /\ Rabs (ps p t) <= asum p.
Proof.
  split; (eapply Rle_trans; [apply rsum_abs|]; apply rsum_le; intros k K; rewrite Rabs_mult; rewrite <- (Rmult_1_r (Rabs (nth k p 0))) at 2; apply Rmult_le_compat_l; [apply Rabs_pos|]; apply Rabs_le).
  - pose proof (COS_bound (INR k * t)). lra.
  - pose proof (SIN_bound (INR k * t)). lra.
Qed.
