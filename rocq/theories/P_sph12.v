(** Legendre polynomials, axisymmetric patterns, filter banks, products, rE. *)
From Verif Require Import Base BaseFacts M_utils S_utils P_utils M_sig P_sig M_sph0 M_sph S_linalg S_sph
  P_sph1 P_sph2 P_sph3 P_sph4 P_sph5 P_sph6 P_sph7 P_sph8 P_sph9 P_sph10 P_sph11.
Open Scope R_scope.

(** ** the documented formula *)
Lemma leg2_S k x : leg2 (S k) x = (snd (leg2 k x), ((2 * INR k + 1) * x * snd (leg2 k x) - INR k * fst (leg2 k x)) / (INR k + 1)).
Proof. simpl. destruct (leg2 k x); reflexivity. Qed.
Lemma leg2_one n : fst (leg2 (S n) 1) = 1 /\ snd (leg2 (S n) 1) = 1.
Proof.
  induction n as [|n [A B]].
  - simpl. split; field.
  - rewrite (leg2_S (S n)). cbn [fst snd]. rewrite A, B. split; auto. pose proof (pos_INR (S n)). field. lra.
Qed.
Lemma legendre_one n : eval_legendre n 1 = 1.
Proof. destruct n; [reflexivity|]. apply leg2_one. Qed.
Lemma Q_x_deriv n m x : derivable_pt_lim (fun x => Q n m x 1) x (Q n (S m) x 1).
Proof.
  eapply dpl_val; [|apply (Q_deriv (fun x => x) (fun _ => 1) x 1 0 n m)].
  - field.
  - apply derivable_pt_lim_id.
  - apply derivable_pt_lim_const.
Qed.
Lemma legendre_nth_deriv n m : nth_derivative m (eval_legendre n) (fun x => Q n m x 1).
Proof.
  induction m as [|m IH]; simpl.
  - intros x. rewrite legendre_Q. reflexivity.
  - exists (fun x => Q n m x 1). split; auto. intros x. apply Q_x_deriv.
Qed.
Lemma legendre_is n : is_legendre n (eval_legendre n).
Proof.
  split; [apply legendre_one|]. exists (fun x => Q n 1 x 1), (fun x => Q n 2 x 1). split; [apply (legendre_nth_deriv n 1)|]. split.
  - exists (fun x => Q n 1 x 1). split; [intros x; reflexivity|]. intros x. apply Q_x_deriv.
  - intros x. rewrite legendre_Q. pose proof (Q_c n 1 x 1) as A. pose proof (Q_b n 0 x 1) as B. simpl INR in A, B. nra.
Qed.
Theorem sh_documented n m : degree n m -> exists A, is_assoc_legendre n (Z.abs_nat m) A /\
  forall azi zen, sh_real n m azi zen =
    sh_norm n (Z.abs_nat m) * A (cos zen) *
      (if (m =? 0)%Z then 1 else if (m <? 0)%Z then sqrt 2 * sin (INR (Z.abs_nat m) * azi) else sqrt 2 * cos (INR (Z.abs_nat m) * azi)).
Proof.
  intros H. set (p := Z.abs_nat m). exists (fun x => sqrt (1 - x * x) ^ p * Q n p x 1). split.
  - exists (eval_legendre n), (fun x => Q n p x 1). split; [apply legendre_is|]. split; [apply legendre_nth_deriv|reflexivity].
  - intros azi zen. unfold sh_real. pose proof (neg1_sq p) as NS. unfold sh_norm.
    destruct (Z.eqb_spec m 0) as [->|N0].
    + unfold p in *. unfold sph_harm. simpl Z.abs_nat. simpl Z.ltb. cbv iota. cbn [fst]. rewrite lpmv_Q. simpl (INR 0). rewrite Rmult_0_l, cos_0. change (Z.abs_nat 0) with 0%nat. simpl pow. change (0 <? 0)%Z with false. cbn [fst]. ring.
    + assert (EA : Z.abs_nat (Z.abs m) = p) by (unfold p; lia). assert (EL : (Z.abs m <? 0)%Z = false) by (apply Z.ltb_ge; lia).
      unfold sph_harm. rewrite EA, EL. cbn [fst snd]. fold p. rewrite lpmv_Q.
      destruct (Z.ltb_spec m 0); set (a := sqrt (1 - cos zen * cos zen) ^ p); set (q := Q n p (cos zen) 1); set (s := sqrt (_ / _ * _)).
      * transitivity (((-1) ^ p * (-1) ^ p) * (s * (a * q) * (sqrt 2 * sin (INR p * azi)))); [ring|rewrite NS; ring].
      * transitivity (((-1) ^ p * (-1) ^ p) * (s * (a * q) * (sqrt 2 * cos (INR p * azi)))); [ring|rewrite NS; ring].
Qed.
(** complex harmonics: Condon-Shortley phase and conjugate symmetry *)
Theorem sph_harm_documented n m : degree n m -> exists A, is_assoc_legendre n (Z.abs_nat m) A /\
  forall azi zen, sph_harm m n azi zen =
    (let s := if (m <? 0)%Z then 1 else (-1) ^ Z.abs_nat m in
     (s * (sh_norm n (Z.abs_nat m) * A (cos zen)) * cos (IZR m * azi), s * (sh_norm n (Z.abs_nat m) * A (cos zen)) * sin (IZR m * azi))).
Proof.
  intros H. set (p := Z.abs_nat m). exists (fun x => sqrt (1 - x * x) ^ p * Q n p x 1). split.
  - exists (eval_legendre n), (fun x => Q n p x 1). split; [apply legendre_is|]. split; [apply legendre_nth_deriv|reflexivity].
  - intros azi zen. unfold sph_harm. fold p. rewrite lpmv_Q. pose proof (neg1_sq p) as NS. unfold sh_norm.
    set (a := sqrt (1 - cos zen * cos zen) ^ p). set (q := Q n p (cos zen) 1). set (s := sqrt (_ / _ * _)).
    destruct (Z.ltb_spec m 0) as [L|L]; cbv zeta.
    + assert (EM : IZR m = - INR p) by (unfold p; rewrite INR_IZR_INZ, <- opp_IZR; f_equal; lia). rewrite EM.
      replace (- INR p * azi) with (- (INR p * azi)) by ring. rewrite cos_neg, sin_neg. f_equal.
      * transitivity (((-1) ^ p * (-1) ^ p) * (s * (a * q) * cos (INR p * azi))); [ring|rewrite NS; ring].
      * transitivity (((-1) ^ p * (-1) ^ p) * (s * (a * q) * - sin (INR p * azi))); [ring|rewrite NS; ring].
    + assert (EM : IZR m = INR p) by (unfold p; rewrite INR_IZR_INZ; f_equal; lia). rewrite EM. f_equal; ring.
Qed.

(** ** bounds *)
Lemma legendre_abs n x : -1 <= x <= 1 -> Rabs (eval_legendre n x) <= 1.
Proof.
  intros H. pose proof PI_RGT_0 as PP. pose proof (pos_INR n) as PN.
  assert (X2 : 0 <= 1 - x * x) by nra.
  set (u := (0, 0, 1) : V3). set (v := (sqrt (1 - x * x), 0, x) : V3).
  assert (SS : sqrt (1 - x * x) * sqrt (1 - x * x) = 1 - x * x) by (apply sqrt_sqrt; auto).
  assert (UU : dot3 u u = 1) by (unfold u, dot3, vx, vy, vz; simpl; ring).
  assert (VV : dot3 v v = 1) by (unfold v, dot3, vx, vy, vz; simpl; lra).
  assert (UV : dot3 u v = x) by (unfold u, v, dot3, vx, vy, vz; simpl; ring).
  assert (O1 : forall n, Q n 0 1 1 = 1) by (intros; rewrite <- legendre_Q; apply legendre_one).
  set (k := (2 * INR n + 1) / (4 * PI)). assert (KP : 0 < k) by (unfold k; apply Rdiv_lt_0_compat; lra).
  pose proof (Yz_addition n u v) as A. rewrite UU, VV, UV in A. rewrite Rmult_1_r in A. fold k in A.
  pose proof (Yz_addition n u u) as B. rewrite UU in B. rewrite Rmult_1_r, O1 in B. fold k in B.
  pose proof (Yz_addition n v v) as C. rewrite VV in C. rewrite Rmult_1_r, O1 in C. fold k in C.
  unfold zs in *.
  pose proof (rsum_cauchy_schwarz (2 * n + 1) (fun i => Yz n (Z.of_nat i - Z.of_nat n) u) (fun i => Yz n (Z.of_nat i - Z.of_nat n) v)) as CS.
  cbv beta in CS. rewrite A, B, C in CS. rewrite legendre_Q. unfold Rsqr in CS.
  assert (KK : 0 < k * k) by (apply Rmult_lt_0_compat; auto).
  assert (Q2 : Q n 0 x 1 * Q n 0 x 1 <= 1) by (apply Rmult_le_reg_l with (k * k); [auto|lra]). clear - Q2. apply Rabs_le. nra.
Qed.
Lemma Rabs_le_inv x a : Rabs x <= a -> - a <= x <= a.
Proof. unfold Rabs. destruct (Rcase_abs x); lra. Qed.
Definition Ssum (n : nat) (x : R) : R := rsum (n + 1) (fun k => (2 * INR k + 1) * eval_legendre k x).
Lemma legendre_rec n x : (INR n + 1) * eval_legendre (S n) x = (2 * INR n + 1) * x * eval_legendre n x - INR n * (match n with O => 0 | S k => eval_legendre k x end).
Proof.
  unfold eval_legendre. simpl leg2. destruct (leg2 n x) as [a b] eqn:E. cbn [snd].
  assert (EA : (match n with O => 0 | S k => snd (leg2 k x) end) = a).
  { destruct n; [simpl in E; congruence|]. simpl in E. destruct (leg2 n x) as [a' b'] eqn:E'. injection E. intros. simpl. auto. }
  rewrite EA. pose proof (pos_INR n). field. lra.
Qed.
Lemma legendre_cd n x : (INR n + 1) * (eval_legendre n x - eval_legendre (S n) x) = (1 - x) * Ssum n x.
Proof.
  induction n as [|n IH].
  - unfold Ssum. simpl. unfold eval_legendre. simpl. field.
  - unfold Ssum in *. replace (S n + 1)%nat with (S (n + 1)) by lia. cbn [rsum]. replace (n + 1)%nat with (S n) in * by lia.
    rewrite Rmult_plus_distr_l, <- IH. pose proof (legendre_rec (S n) x) as E. cbv iota in E. rewrite S_INR in *.
    rewrite Rmult_minus_distr_l, E. ring.
Qed.
Lemma Ssum_le n x : -1 <= x <= 1 -> Ssum n x <= (INR n + 1) * (INR n + 1).
Proof.
  intros H. induction n as [|n IH].
  - unfold Ssum. simpl. unfold eval_legendre. simpl. lra.
  - unfold Ssum in *. replace (S n + 1)%nat with (S (n + 1)) by lia. cbn [rsum]. replace (n + 1)%nat with (S n) in * by lia.
    pose proof (legendre_abs (S n) x H) as A. apply Rabs_le_inv in A. rewrite S_INR in *. pose proof (pos_INR n). nra.
Qed.
Lemma legendre_lower n x : -1 <= x <= 1 -> 1 - (1 - x) * (INR n * (INR n + 1)) / 2 <= eval_legendre n x.
Proof.
  intros H. induction n as [|n IH].
  - unfold eval_legendre. simpl. lra.
  - pose proof (legendre_cd n x) as E. pose proof (Ssum_le n x H) as S1. pose proof (pos_INR n) as PN. rewrite S_INR.
    assert (D : eval_legendre n x - eval_legendre (S n) x <= (1 - x) * (INR n + 1)).
    { apply Rmult_le_reg_l with (INR n + 1); [lra|]. rewrite E. nra. }
    nra.
Qed.
Lemma Ssum_lower n x : -1 <= x <= 1 ->
  (INR n + 1) * (INR n + 1) * (1 - (1 - x) * (INR n * (INR n + 2)) / 4) <= Ssum n x.
Proof.
  intros H. induction n as [|n IH].
  - unfold Ssum. simpl. unfold eval_legendre. simpl. lra.
  - unfold Ssum in *. replace (S n + 1)%nat with (S (n + 1)) by lia. cbn [rsum]. replace (n + 1)%nat with (S n) in * by lia.
    pose proof (legendre_lower (S n) x H) as A. rewrite S_INR in *. pose proof (pos_INR n) as PN.
    assert (B : (2 * (INR n + 1) + 1) * (1 - (1 - x) * ((INR n + 1) * (INR n + 1 + 1)) / 2) <= (2 * (INR n + 1) + 1) * eval_legendre (S n) x) by (apply Rmult_le_compat_l; lra).
    set (p := eval_legendre (S n) x) in *. set (q := INR n) in *. clearbody p q.
    eapply Rle_trans; [|apply Rplus_le_compat; [exact IH|exact B]]. right. field.
Qed.

(** ** the beam pattern *)
Definition dirac_at (w : list R) (x : R) : R := rsum (length w) (fun n => nth n w 0 * (2 * INR n + 1) / (4 * PI) * eval_legendre n (cos x)).
Lemma dirac_ok N d w : length w = (N + 1)%nat -> bandlimited_dirac N d (Some w) = Ok (map (dirac_at w) d).
Proof.
  intros L. unfold bandlimited_dirac. rewrite L, Nat.eqb_refl. cbn [assert_ bind]. f_equal. apply map_ext. intros x. unfold dirac_at. rewrite L.
  rewrite (rsum_extend (N + 1) ((N + 1) ^ 2)).
  - apply rsum_ext. intros i Hi. destruct (Nat.ltb_spec i (N + 1)); [reflexivity|lia].
  - rewrite sq2. nia.
  - intros i Hi. destruct (Nat.ltb_spec i (N + 1)); [lia|reflexivity].
Qed.
Lemma dirac_default N d : bandlimited_dirac N d None = bandlimited_dirac N d (Some (repeat 1 (N + 1))).
Proof. reflexivity. Qed.
Lemma dirac_wrong N d w : length w <> (N + 1)%nat -> bandlimited_dirac N d (Some w) = Err AssertionError.
Proof. intros H. unfold bandlimited_dirac. apply Nat.eqb_neq in H. rewrite H. reflexivity. Qed.
Theorem dirac_pattern w d a1 z1 a2 z2 : 0 <= z1 <= PI -> 0 <= z2 <= PI ->
  dot3 (sph2cart a1 z1 1) (sph2cart a2 z2 1) = cos d ->
  dirac_at w d = rsum (length w) (fun n => nth n w 0 * rsum (2 * n + 1) (fun i =>
      sh_real n (Z.of_nat i - Z.of_nat n) a1 z1 * sh_real n (Z.of_nat i - Z.of_nat n) a2 z2)).
Proof.
  intros H1 H2 HD. unfold dirac_at. apply rsum_ext. intros n _.
  rewrite (rsum_ext (2 * n + 1) _ (fun i => Yz n (Z.of_nat i - Z.of_nat n) (sph2cart a1 z1 1) * Yz n (Z.of_nat i - Z.of_nat n) (sph2cart a2 z2 1)))
    by (intros; rewrite !sh_real_Yz by (apply sin_nonneg; auto); reflexivity).
  pose proof (Yz_addition n (sph2cart a1 z1 1) (sph2cart a2 z2 1)) as A. unfold zs in A. rewrite A, !unit_dir, HD, Rmult_1_r, legendre_Q. field.
  apply PI_neq0.
Qed.
Lemma dirac_zero w : dirac_at w 0 = rsum (length w) (fun n => nth n w 0 * (2 * INR n + 1) / (4 * PI)).
Proof. unfold dirac_at. apply rsum_ext. intros n _. rewrite cos_0, legendre_one. ring. Qed.
Lemma dirac_max w d : (forall x, In x w -> 0 <= x) -> Rabs (dirac_at w d) <= dirac_at w 0.
Proof.
  intros H. rewrite dirac_zero. unfold dirac_at. eapply Rle_trans; [apply rsum_abs|]. apply rsum_le. intros n Hn.
  pose proof (legendre_abs n (cos d) (COS_bound d)) as A. pose proof (pos_INR n) as PN. pose proof PI_RGT_0.
  assert (W : 0 <= nth n w 0 * (2 * INR n + 1) / (4 * PI)).
  { apply Rmult_le_pos; [|left; apply Rinv_0_lt_compat; lra]. apply Rmult_le_pos; [apply H, nth_In; auto|lra]. }
  rewrite Rabs_mult, (Rabs_right (_ / _)) by lra. rewrite <- (Rmult_1_r (_ / _)) at 2. apply Rmult_le_compat_l; auto.
Qed.

(** ** modal weights *)
Definition response0 (c : list R) : R := rsum (length c) (fun n => (2 * INR n + 1) / (4 * PI) * nth n c 0).
Lemma dirac_zero_response w : dirac_at w 0 = response0 w.
Proof. rewrite dirac_zero. apply rsum_ext. intros. unfold Rdiv. ring. Qed.
Lemma response0_div c a : a <> 0 -> response0 (map (fun x => x / a) c) = response0 c / a.
Proof.
  intros H. unfold response0. rewrite map_length. unfold Rdiv at 3. rewrite <- rsum_scal_r. apply rsum_ext. intros n Hn.
  rewrite (nth_map_in (fun x => x / a) c n 0 0) by auto. unfold Rdiv. ring.
Qed.
Lemma hyper_unit N : unit_response (hypercardioid_modal_weights N).
Proof.
  unfold unit_response, hypercardioid_modal_weights. rewrite repeat_length.
  rewrite (rsum_ext (N + 1) _ (fun n => / INR ((N + 1) ^ 2) * (2 * INR n + 1))).
  - rewrite rsum_scal. assert (E : rsum (N + 1) (fun n => 2 * INR n + 1) = INR ((N + 1) ^ 2)).
    { rewrite sq2. induction N as [|N IH]; [simpl; ring|]. replace (S N + 1)%nat with (S (N + 1)) by lia. cbn [rsum]. rewrite IH.
      rewrite !mult_INR, S_INR, plus_INR. simpl INR. ring. }
    rewrite E. field. apply not_0_INR. pose proof (sq_ge1 N). lia.
  - intros n Hn. rewrite (nth_indep _ 0 (4 * PI / INR ((N + 1) ^ 2))) by (rewrite repeat_length; auto). rewrite nth_repeat. field.
    split; [apply not_0_INR; pose proof (sq_ge1 N); lia|apply PI_neq0].
Qed.
Lemma tele n (a : nat -> R) : rsum n (fun k => a k - a (S k)) = a 0%nat - a n.
Proof. induction n as [|n IH]; simpl; [ring|]. rewrite IH. ring. Qed.
Lemma cardioid_unit N : unit_response (cardioid_modal_weights N).
Proof.
  unfold unit_response, cardioid_modal_weights. rewrite map_length, seq_length. pose proof PI_neq0 as PN.
  set (F := fun k => INR (fact k)). assert (FP : forall k, F k <> 0) by (intros; apply INR_fact_neq_0).
  set (a := fun n => if Nat.leb n N then F N * F N / (F (N + n)%nat * F (N - n)%nat) else 0).
  rewrite (rsum_ext (N + 1) _ (fun n => a n - a (S n))).
  - rewrite tele. unfold a. destruct (Nat.leb_spec (N + 1) N); [lia|]. simpl Nat.leb. cbv iota. rewrite Nat.add_0_r, Nat.sub_0_r. field. apply FP.
  - intros n Hn. rewrite nth_map_seq by auto. fold (F N). unfold a. destruct (Nat.leb_spec n N); [|lia].
    assert (FS : F (N + n + 1)%nat = (INR N + INR n + 1) * F (N + n)%nat).
    { unfold F. replace (N + n + 1)%nat with (S (N + n)) by lia. rewrite fact_S_INR, plus_INR. reflexivity. }
    fold (F (N + n + 1)%nat) (F (N - n)%nat).
    pose proof (pos_INR N). pose proof (pos_INR n).
    destruct (Nat.leb_spec (S n) N).
    + replace (N + S n)%nat with (N + n + 1)%nat by lia. replace (N - n)%nat with (S (N - S n)) by lia.
      assert (FS2 : F (S (N - S n)) = (INR N - INR n) * F (N - S n)%nat).
      { unfold F. rewrite fact_S_INR. f_equal. rewrite minus_INR, S_INR by lia. ring. }
      rewrite FS2, FS. assert (INR (S n) <= INR N) by (apply le_INR; lia). rewrite S_INR in *.
      pose proof (FP (N + n)%nat). pose proof (FP (N - S n)%nat). field. repeat split; auto; lra.
    + assert (n = N) by lia. subst n. rewrite FS. pose proof (FP (N + N)%nat). pose proof (FP (N - N)%nat). field. repeat split; auto; lra.
Qed.
Lemma PI_bound : PI <= 3467 / 1000.
Proof.
  pose proof (PI_ineq 1) as [_ H]. unfold tg_alt, PI_tg in H. simpl in H. lra.
Qed.
Lemma one_minus_cos t : 1 - cos t <= t * t / 2.
Proof.
  assert (E : 1 - cos t = 2 * (sin (t / 2) * sin (t / 2))).
  { replace t with (2 * (t / 2)) at 1 by field. rewrite cos_2a_sin. ring. }
  assert (S1 : forall x, 0 <= x -> sin x <= x).
  { intros x Hx. destruct (Rle_lt_or_eq_dec 0 x Hx) as [L|<-]; [left; apply sin_lt_x; auto|rewrite sin_0; lra]. }
  assert (S2 : Rabs (sin (t / 2)) <= Rabs (t / 2)).
  { assert (P : forall x, 0 <= x -> Rabs (sin x) <= x).
    { intros x Hx. apply Rabs_le. split; [|apply S1; auto].
      destruct (Rle_lt_dec x 1) as [L|L].
      - pose proof PI2_1. assert (0 <= sin x) by (apply sin_ge_0; lra). lra.
      - pose proof (SIN_bound x). lra. }
    destruct (Rle_lt_dec 0 (t / 2)) as [L|L].
    - rewrite (Rabs_right (t / 2)) by lra. apply P; auto.
    - rewrite <- Rabs_Ropp, <- sin_neg, (Rabs_left (t / 2)) by lra. apply P. lra. }
  assert (S3 : sin (t / 2) * sin (t / 2) <= (t / 2) * (t / 2)).
  { apply Rsqr_le_abs_1 in S2. exact S2. }
  rewrite E. lra.
Qed.
Lemma maxre_response_pos N : 0 < response0 (max_rE_weights N).
Proof.
  unfold response0, max_rE_weights. rewrite map_length, seq_length. set (th := _ / _). pose proof PI_RGT_0 as PP.
  rewrite (rsum_ext (N + 1) _ (fun n => / (4 * PI) * ((2 * INR n + 1) * eval_legendre n (cos th)))).
  - rewrite rsum_scal. apply Rmult_lt_0_compat; [apply Rinv_0_lt_compat; lra|].
    pose proof (Ssum_lower N (cos th) (COS_bound th)) as L. unfold Ssum in L. eapply Rlt_le_trans; [|exact L].
    pose proof (pos_INR N) as PN. apply Rmult_lt_0_compat; [nra|].
    pose proof (one_minus_cos th) as C. pose proof PI_bound as PB. pose proof (COS_bound th) as CB.
    set (D := INR N + 151 / 100) in *. assert (DP : 0 < D) by (unfold D; lra).
    assert (TD : th * D = np_deg2rad (1379 / 10)) by (unfold th; field; lra).
    assert (NB : 0 <= np_deg2rad (1379 / 10) <= 27 / 10) by (unfold np_deg2rad; split; [|]; nra).
    assert (ND : INR N * (INR N + 2) <= D * D) by (unfold D; nra).
    assert (T2 : th * th * (D * D) <= 27 / 10 * (27 / 10)).
    { replace (th * th * (D * D)) with ((th * D) * (th * D)) by ring. rewrite TD. apply Rmult_le_compat; lra. }
    assert (X : (1 - cos th) * (INR N * (INR N + 2)) <= th * th / 2 * (D * D)) by (apply Rmult_le_compat; nra).
    nra.
  - intros n Hn. rewrite nth_map_seq by auto. field. apply PI_neq0.
Qed.
Lemma unit_amp_ok N c : length c = (N + 1)%nat -> response0 c <> 0 ->
  unit_amp N c true = Ok (Some (map (fun x => x / response0 c) c)) /\ unit_response (map (fun x => x / response0 c) c).
Proof.
  intros L H. unfold unit_amp. rewrite dirac_ok by auto. cbn [bind map nth]. rewrite dirac_zero_response.
  replace (Reqb (response0 c) 0) with false by (symmetry; apply Reqb_false; auto). split; [reflexivity|].
  change (response0 (map (fun x => x / response0 c) c) = 1). rewrite response0_div by auto. field. auto.
Qed.
Lemma maxre_unit N : exists c, maxre_modal_weights N true = Ok (Some c) /\ length c = (N + 1)%nat /\ unit_response c.
Proof.
  unfold maxre_modal_weights. assert (L : length (max_rE_weights N) = (N + 1)%nat) by (unfold max_rE_weights; rewrite map_length, seq_length; auto).
  pose proof (maxre_response_pos N) as P.
  destruct (unit_amp_ok N (max_rE_weights N) L ltac:(lra)) as [E U]. rewrite E. eexists. split; [reflexivity|]. rewrite map_length. auto.
Qed.
Lemma response0_pos c : (0 < length c)%nat -> (forall x, In x c -> 0 < x) -> 0 < response0 c.
Proof.
  intros L H. unfold response0. pose proof PI_RGT_0.
  assert (TP : forall n, (n < length c)%nat -> 0 < (2 * INR n + 1) / (4 * PI) * nth n c 0).
  { intros n Hn. pose proof (pos_INR n). apply Rmult_lt_0_compat; [apply Rdiv_lt_0_compat; lra|apply H, nth_In; auto]. }
  eapply Rlt_le_trans; [apply (TP 0%nat); auto|].
  apply (rsum_ge_term (length c) (fun n => (2 * INR n + 1) / (4 * PI) * nth n c 0) 0%nat); auto. intros; left; apply TP; auto.
Qed.
Lemma butterworth_unit N k n_c : n_c <> 0 -> exists c, butterworth_modal_weights N k n_c true = Ok (Some c) /\ length c = (N + 1)%nat /\ unit_response c.
Proof.
  intros Hc. unfold butterworth_modal_weights. set (c := map _ _).
  assert (L : length c = (N + 1)%nat) by (unfold c; rewrite map_length, seq_length; auto).
  assert (P : 0 < response0 c).
  { apply response0_pos; [lia|]. intros x Hx. unfold c in Hx. apply in_map_iff in Hx. destruct Hx as (n & <- & _).
    apply Rdiv_lt_0_compat; [lra|]. apply sqrt_lt_R0. rewrite pow_mult. assert (0 <= ((INR n / n_c) ^ 2) ^ k) by (apply pow_le; apply pow2_ge_0). lra. }
  destruct (unit_amp_ok N c L ltac:(lra)) as [E U]. rewrite E. eexists. split; [reflexivity|]. rewrite map_length. auto.
Qed.
Lemma unity_gain_unit w w' : unity_gain w = Some w' -> length w' = length w /\ unit_response w'.
Proof.
  unfold unity_gain. fold (response0 w). destruct (Reqb (response0 w) 0) eqn:E; [discriminate|]. apply Reqb_false in E. intros H. injection H as <-.
  rewrite map_length. split; auto. change (response0 (map (fun x => x / response0 w) w) = 1). rewrite response0_div by auto. field. auto.
Qed.
Lemma unity_gain_defined w : (0 < length w)%nat -> (forall x, In x w -> 0 < x) -> exists w', unity_gain w = Some w'.
Proof.
  intros L H. unfold unity_gain. fold (response0 w). pose proof (response0_pos w L H).
  replace (Reqb (response0 w) 0) with false by (symmetry; apply Reqb_false; lra). eauto.
Qed.
