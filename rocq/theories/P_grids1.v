(** Trigonometric sums, the polar integral, and quadrature on product grids. *)
From Verif Require Import Base BaseFacts M_sph0 P_sph1 P_sph7 P_sph4 P_sph12 M_sph S_sph.
Open Scope R_scope.

(** ** sums of cosines in arithmetic progression *)
Lemma cos_sum x c J : 2 * sin (x / 2) * rsum J (fun j => cos (INR j * x + c)) = sin ((INR J - 1 / 2) * x + c) - sin (c - x / 2).
Proof.
  induction J as [|J IH].
  - simpl. replace ((0 - 1 / 2) * x + c) with (c - x / 2) by field. ring.
  - cbn [rsum]. rewrite Rmult_plus_distr_l, IH. rewrite S_INR. set (A := INR J * x + c).
    replace ((INR J + 1 - 1 / 2) * x + c) with (A + x / 2) by (unfold A; field).
    replace ((INR J - 1 / 2) * x + c) with (A - x / 2) by (unfold A; field).
    rewrite sin_plus, !sin_minus. ring.
Qed.
Lemma sin_2kpi x k : sin (x + 2 * INR k * PI) = sin x.
Proof. apply sin_period. Qed.
Lemma azi_cos c J m : (0 < m < J)%nat -> rsum J (fun j => cos (INR j * (INR m * (2 * PI / INR J)) + c)) = 0.
Proof.
  intros [H1 H2]. set (x := INR m * (2 * PI / INR J)). assert (J0 : 0 < INR J) by (apply lt_0_INR; lia).
  assert (m0 : 0 < INR m) by (apply lt_0_INR; lia). assert (mJ : INR m < INR J) by (apply lt_INR; lia).
  pose proof PI_RGT_0 as P.
  assert (S0 : 0 < sin (x / 2)).
  { apply sin_gt_0; unfold x.
    - replace (INR m * (2 * PI / INR J) / 2) with (INR m * PI / INR J) by (field; lra). apply Rdiv_lt_0_compat; nra.
    - replace (INR m * (2 * PI / INR J) / 2) with (PI * (INR m / INR J)) by (field; lra).
      assert (INR m / INR J < 1) by (apply Rmult_lt_reg_r with (INR J); auto; replace (INR m / INR J * INR J) with (INR m) by (field; lra); lra). nra. }
  pose proof (cos_sum x c J) as E.
  replace ((INR J - 1 / 2) * x + c) with ((c - x / 2) + 2 * INR m * PI) in E by (unfold x; field; lra).
  rewrite sin_2kpi in E. assert (E2 : 2 * sin (x / 2) * rsum J (fun j => cos (INR j * x + c)) = 0) by lra.
  apply Rmult_integral in E2. destruct E2 as [E2|E2]; auto. lra.
Qed.
Lemma azi_sums J m : (0 < m < J)%nat ->
  rsum J (fun j => cos (INR m * (INR j * (2 * PI / INR J)))) = 0 /\ rsum J (fun j => sin (INR m * (INR j * (2 * PI / INR J)))) = 0.
Proof.
  intros H. split.
  - rewrite <- (azi_cos 0 J m H). apply rsum_ext. intros j _. f_equal. ring.
  - rewrite <- (azi_cos (- (PI / 2)) J m H). apply rsum_ext. intros j _.
    replace (INR j * (INR m * (2 * PI / INR J)) + - (PI / 2)) with (- (PI / 2 - INR m * (INR j * (2 * PI / INR J)))) by ring.
    rewrite cos_neg, cos_shift. reflexivity.
Qed.
(** half-integer points: theta_i = pi (i + 1/2) / L *)
Definition half_pt (L i : nat) : R := INR i * (PI / INR L) + PI / INR L / 2.
Lemma half_cos L a : (0 < a < 2 * L)%nat -> rsum L (fun i => cos (INR a * half_pt L i)) = 0.
Proof.
  intros [H1 H2]. assert (L0 : 0 < INR L) by (apply lt_0_INR; lia).
  assert (a0 : 0 < INR a) by (apply lt_0_INR; lia). assert (aL : INR a < 2 * INR L) by (replace 2 with (INR 2) by (simpl; ring); rewrite <- mult_INR; apply lt_INR; lia).
  pose proof PI_RGT_0 as P. set (x := INR a * (PI / INR L)).
  assert (S0 : 0 < sin (x / 2)).
  { apply sin_gt_0; unfold x.
    - replace (INR a * (PI / INR L) / 2) with (INR a * PI / (2 * INR L)) by (field; lra). apply Rdiv_lt_0_compat; nra.
    - replace (INR a * (PI / INR L) / 2) with (PI * (INR a / (2 * INR L))) by (field; lra).
      assert (INR a / (2 * INR L) < 1) by (apply Rmult_lt_reg_r with (2 * INR L); [lra|]; replace (INR a / (2 * INR L) * (2 * INR L)) with (INR a) by (field; lra); lra). nra. }
  pose proof (cos_sum x (x / 2) L) as E.
  replace ((INR L - 1 / 2) * x + x / 2) with (INR a * PI) in E by (unfold x; field; lra).
  replace (x / 2 - x / 2) with 0 in E by ring. rewrite sin_0 in E.
  assert (SP : sin (INR a * PI) = 0) by (apply sin_eq_0_1; exists (Z.of_nat a); rewrite <- INR_IZR_INZ; reflexivity).
  rewrite SP in E. assert (E2 : 2 * sin (x / 2) * rsum L (fun i => cos (INR i * x + x / 2)) = 0) by lra.
  apply Rmult_integral in E2. destruct E2 as [E2|E2]; [lra|].
  rewrite <- E2. apply rsum_ext. intros i _. f_equal. unfold half_pt, x. field. lra.
Qed.
Definition dz (a : Z) : R := if (a =? 0)%Z then 1 else 0.
Lemma half_cosZ L (a : Z) : (Z.abs a < 2 * Z.of_nat L)%Z -> rsum L (fun i => cos (IZR a * half_pt L i)) = INR L * dz a.
Proof.
  intros H. unfold dz. destruct (Z.eqb_spec a 0) as [->|N].
  - rewrite Rmult_1_r. rewrite <- (Rmult_1_r (INR L)), <- rsum_const. apply rsum_ext. intros i _. rewrite Rmult_0_l. apply cos_0.
  - rewrite Rmult_0_r. assert (R0 : (0 < Z.abs_nat a < 2 * L)%nat) by lia. rewrite <- (half_cos L (Z.abs_nat a) R0).
    apply rsum_ext. intros i _. destruct (Z_le_gt_dec 0 a) as [P|P].
    + rewrite INR_IZR_INZ. do 3 f_equal. lia.
    + replace (IZR a) with (- INR (Z.abs_nat a)) by (rewrite INR_IZR_INZ, <- opp_IZR; f_equal; lia).
      replace (- INR (Z.abs_nat a) * half_pt L i) with (- (INR (Z.abs_nat a) * half_pt L i)) by ring. apply cos_neg.
Qed.

(** ** the integral of g(theta) sin(theta) over [0, pi], by antiderivatives *)
Definition tint (g : R -> R) (v : R) : Prop :=
  exists G, (forall t, derivable_pt_lim G t (g t * sin t)) /\ v = G PI - G 0.
Lemma tint_unique g u v : tint g u -> tint g v -> u = v.
Proof.
  intros [G [DG ->]] [H [DH ->]].
  assert (D : forall t, derivable_pt_lim (fun t => G t - H t) t 0).
  { intros t. eapply dpl_val; [|exact (derivable_pt_lim_minus G H t _ _ (DG t) (DH t))]. ring. }
  assert (pr : derivable (fun t => G t - H t)) by (intros t; exists 0; apply D).
  assert (C : constant (fun t => G t - H t)) by (apply (null_derivative_1 _ pr); intros t; apply derive_pt_eq_0, D).
  specialize (C PI 0). cbv beta in C. lra.
Qed.
Lemma tint_lin a c f g u v : tint f u -> tint g v -> tint (fun t => a * f t + c * g t) (a * u + c * v).
Proof.
  intros [F [DF ->]] [G [DG ->]]. exists (fun t => a * F t + c * G t). split; [|ring]. intros t.
  pose proof (derivable_pt_lim_plus _ _ t _ _ (derivable_pt_lim_scal F a t _ (DF t)) (derivable_pt_lim_scal G c t _ (DG t))) as K.
  eapply dpl_val; [|exact K]. cbv beta. ring.
Qed.
Lemma tint_ext f g u : (forall t, f t = g t) -> tint f u -> tint g u.
Proof. intros E [F [DF H]]. exists F. split; auto. intros t. rewrite <- E. apply DF. Qed.

Lemma dcos_a a t : derivable_pt_lim (fun t => cos (a * t)) t (- a * sin (a * t)).
Proof.
  assert (I : derivable_pt_lim (fun t => a * t) t a) by (eapply dpl_val; [|exact (derivable_pt_lim_scal id a t 1 (derivable_pt_lim_id t))]; ring).
  pose proof (derivable_pt_lim_comp (fun t => a * t) cos t a _ I (derivable_pt_lim_cos (a * t))) as K.
  eapply dpl_val; [|exact K]. ring.
Qed.
Lemma cos_INR_PI k : cos (INR k * PI) = (-1) ^ k.
Proof.
  induction k as [|k IH]; [simpl; rewrite Rmult_0_l; apply cos_0|].
  rewrite S_INR. replace ((INR k + 1) * PI) with (INR k * PI + PI) by ring. rewrite neg_cos, IH. simpl. ring.
Qed.
Definition Icos (k : nat) : R := if Nat.even k then 1 / (INR k + 1) - 1 / (INR k - 1) else 0.
Lemma pow_even_odd k : (-1) ^ k = if Nat.even k then 1 else -1.
Proof.
  induction k as [|k IH]; [reflexivity|]. rewrite Nat.even_succ, <- Nat.negb_even. simpl pow. rewrite IH. destruct (Nat.even k); simpl; ring.
Qed.
Lemma tint_cos k : tint (fun t => cos (INR k * t)) (Icos k).
Proof.
  destruct (Nat.eq_dec k 1) as [->|N1].
  - exists (fun t => (- / 4) * cos (2 * t)). split.
    + intros t. pose proof (derivable_pt_lim_scal _ (- / 4) t _ (dcos_a 2 t)) as K. eapply dpl_val; [|exact K]. rewrite sin_2a. simpl INR. rewrite Rmult_1_l. field.
    + unfold Icos. simpl. pose proof (cos_INR_PI 2) as E. simpl in E. replace (2 * PI) with ((1 + 1) * PI) by ring. rewrite E, Rmult_0_r, cos_0. ring.
  - assert (K1 : INR k - 1 <> 0). { change 1 with (INR 1). intros E. apply N1. apply INR_eq. simpl in E |- *. lra. }
    assert (K2 : INR k + 1 <> 0) by (pose proof (pos_INR k); lra).
    exists (fun t => (- / (2 * (INR k + 1))) * cos ((INR k + 1) * t) + (/ (2 * (INR k - 1))) * cos ((INR k - 1) * t)). split.
    + intros t. pose proof (derivable_pt_lim_plus _ _ t _ _ (derivable_pt_lim_scal _ (- / (2 * (INR k + 1))) t _ (dcos_a (INR k + 1) t)) (derivable_pt_lim_scal _ (/ (2 * (INR k - 1))) t _ (dcos_a (INR k - 1) t))) as K.
      eapply dpl_val; [|exact K]. cbv beta.
      replace ((INR k + 1) * t) with (INR k * t + t) by ring. replace ((INR k - 1) * t) with (INR k * t - t) by ring.
      rewrite sin_plus, sin_minus. field. auto.
    + cbv beta. rewrite !Rmult_0_r, cos_0.
      assert (EP : cos ((INR k + 1) * PI) = - (-1) ^ k) by (rewrite <- S_INR, cos_INR_PI; simpl; ring).
      assert (EM : cos ((INR k - 1) * PI) = - (-1) ^ k).
      { replace ((INR k - 1) * PI) with ((INR k + 1) * PI + - (2 * PI)) by ring. rewrite cos_plus, cos_neg, sin_neg, cos_2PI, sin_2PI, EP. ring. }
      rewrite EP, EM, pow_even_odd. unfold Icos. destruct (Nat.even k); field; auto.
Qed.
Lemma tint_pow k : tint (fun t => cos t ^ k) ((1 + (-1) ^ k) / (INR k + 1)).
Proof.
  assert (K2 : INR k + 1 <> 0) by (pose proof (pos_INR k); lra).
  exists (fun t => (- / (INR k + 1)) * cos t ^ (S k)). split.
  - intros t. pose proof (derivable_pt_lim_comp cos (fun y => y ^ (S k)) t _ _ (derivable_pt_lim_cos t) (derivable_pt_lim_pow (cos t) (S k))) as K.
    pose proof (derivable_pt_lim_scal _ (- / (INR k + 1)) t _ K) as K'. eapply dpl_val; [|exact K']. rewrite S_INR. simpl pred. field. auto.
  - cbv beta. rewrite cos_PI, cos_0, pow1. simpl pow. field. auto.
Qed.
(** Legendre polynomials of positive degree integrate to 0 *)
Lemma tint_legendre n : (1 <= n)%nat -> tint (fun t => eval_legendre n (cos t)) 0.
Proof.
  intros H. destruct n as [|k]; [lia|].
  assert (K2 : 2 * INR (S k) + 1 <> 0) by (pose proof (pos_INR (S k)); lra).
  exists (fun t => (- / (2 * INR (S k) + 1)) * (eval_legendre (S (S k)) (cos t) - eval_legendre k (cos t))). split.
  - intros t.
    assert (DL : forall j, derivable_pt_lim (fun t => eval_legendre j (cos t)) t (Q j 1 (cos t) 1 * - sin t)).
    { intros j. apply (dpl_ext (comp (fun x => Q j 0 x 1) cos)); [intros y; unfold comp; symmetry; apply legendre_Q|].
      apply (derivable_pt_lim_comp cos (fun x => Q j 0 x 1) t); [apply derivable_pt_lim_cos|apply Q_x_deriv]. }
    pose proof (derivable_pt_lim_scal _ (- / (2 * INR (S k) + 1)) t _ (derivable_pt_lim_minus _ _ t _ _ (DL (S (S k))) (DL k))) as K.
    eapply dpl_val; [|exact K]. cbv beta. rewrite legendre_Q.
    pose proof (Q_up (S k) 0 (cos t) 1) as U. rewrite Qp_S in U.
    transitivity (((2 * INR (S k) + 1) * Q (S k) 0 (cos t) 1) * (sin t / (2 * INR (S k) + 1))).
    + rewrite U. field. auto.
    + field. auto.
  - cbv beta. rewrite cos_PI, cos_0, !legendre_one.
    assert (E : eval_legendre (S (S k)) (-1) = eval_legendre k (-1)).
    { assert (PM : forall j, eval_legendre j (-1) = (-1) ^ j /\ eval_legendre (S j) (-1) = (-1) ^ (S j)).
      { induction j as [|j [I1 I2]].
        - unfold eval_legendre. simpl. split; [auto|field].
        - split; auto. pose proof (legendre_rec (S j) (-1)) as LR. cbv iota in LR. rewrite I1, I2 in LR. rewrite S_INR in LR. pose proof (pos_INR j) as PJ.
          apply Rmult_eq_reg_l with (INR j + 1 + 1); [|lra]. rewrite LR. cbn [pow]. ring. }
      destruct (PM k) as [E1 _], (PM (S k)) as [_ E3]. rewrite E1, E3. cbn [pow]. ring. }
    rewrite E. ring.
Qed.

(** ** span of a family closed under multiplication with cos *)
Inductive span (b : nat -> R -> R) (n : nat) : (R -> R) -> Prop :=
  | sp_b k : (k <= n)%nat -> span b n (b k)
  | sp_lin a c f g : span b n f -> span b n g -> span b n (fun t => a * f t + c * g t)
  | sp_ext f g : (forall t, f t = g t) -> span b n f -> span b n g.
Definition cos_family (b : nat -> R -> R) : Prop :=
  (forall t, b 0%nat t = 1) /\ forall k, exists a c, forall t, cos t * b k t = a * b (S k) t + c * b (pred k) t.
Lemma span_mono b n m f : (n <= m)%nat -> span b n f -> span b m f.
Proof. intros H S. induction S; [apply sp_b; lia|apply sp_lin; auto|eapply sp_ext; eauto]. Qed.
Lemma span_mul b n f : cos_family b -> span b n f -> span b (S n) (fun t => cos t * f t).
Proof.
  intros [B0 BM] SP. induction SP as [k Hk|a c f g _ If _ Ig|f g E _ If].
  - destruct (BM k) as [a [c E]]. apply sp_ext with (fun t => a * b (S k) t + c * b (pred k) t); [intros t; symmetry; apply E|].
    apply sp_lin; apply sp_b; lia.
  - apply sp_ext with (fun t => a * (cos t * f t) + c * (cos t * g t)); [intros t; ring|]. apply sp_lin; auto.
  - apply sp_ext with (fun t => cos t * f t); auto. intros t. rewrite E. reflexivity.
Qed.
Lemma span_legendre b n : cos_family b -> span b n (fun t => eval_legendre n (cos t)) /\ span b (S n) (fun t => eval_legendre (S n) (cos t)).
Proof.
  intros B. assert (P0 : span b 0 (fun t => eval_legendre 0 (cos t))).
  { apply sp_ext with (b 0%nat); [intros t; rewrite (proj1 B); reflexivity|]. apply sp_b. lia. }
  induction n as [|n [I1 I2]].
  - split; auto. apply sp_ext with (fun t => cos t * eval_legendre 0 (cos t)); [intros t; unfold eval_legendre; simpl; field|]. apply span_mul; auto.
  - split; auto. pose proof (pos_INR n) as PN. assert (ND : INR (S n) + 1 <> 0) by (rewrite S_INR; lra).
    apply sp_ext with (fun t => ((2 * INR (S n) + 1) / (INR (S n) + 1)) * (cos t * eval_legendre (S n) (cos t)) + (- (INR (S n) / (INR (S n) + 1))) * eval_legendre n (cos t)).
    + intros t. pose proof (legendre_rec (S n) (cos t)) as LR. cbv iota in LR.
      apply Rmult_eq_reg_l with (INR (S n) + 1); auto. rewrite LR. field. auto.
    + apply sp_lin; [apply span_mul; auto|apply span_mono with n; auto].
Qed.
Lemma family_cos : cos_family (fun k t => cos (INR k * t)).
Proof.
  split; [intros t; simpl; rewrite Rmult_0_l; apply cos_0|]. intros [|k].
  - exists 1, 0. intros t. simpl. rewrite Rmult_0_l, cos_0. replace (1 * t) with t by ring. ring.
  - exists (1 / 2), (1 / 2). intros t. simpl pred. rewrite !S_INR. replace ((INR k + 1 + 1) * t) with ((INR k + 1) * t + t) by ring.
    replace (INR k * t) with ((INR k + 1) * t - t) by ring. rewrite cos_plus, cos_minus. field.
Qed.
Lemma family_pow : cos_family (fun k t => cos t ^ k).
Proof. split; [reflexivity|]. intros k. exists 1, 0. intros t. simpl. ring. Qed.

(** a rule that integrates a family up to degree [t] integrates Legendre polynomials *)
Definition rule (L : nat) (om th : nat -> R) (f : R -> R) : R := rsum L (fun i => om i * f (th i)).
Lemma rule_span L om th b n : (forall k, (k <= n)%nat -> exists v, tint (b k) v /\ rule L om th (b k) = v) ->
  forall f, span b n f -> exists v, tint f v /\ rule L om th f = v.
Proof.
  intros B f S. induction S as [k Hk|a c f g _ [u [U1 U2]] _ [v [V1 V2]]|f g E _ [u [U1 U2]]].
  - auto.
  - exists (a * u + c * v). split; [apply tint_lin; auto|]. rewrite <- U2, <- V2. unfold rule. rewrite <- !rsum_scal, <- rsum_plus. apply rsum_ext. intros; ring.
  - exists u. split; [apply tint_ext with f; auto|]. rewrite <- U2. unfold rule. apply rsum_ext. intros i _. rewrite E. reflexivity.
Qed.
Lemma rule_legendre L om th b n : cos_family b -> (forall k, (k <= n)%nat -> exists v, tint (b k) v /\ rule L om th (b k) = v) ->
  rsum L om = 2 /\ forall j, (1 <= j <= n)%nat -> rule L om th (fun t => eval_legendre j (cos t)) = 0.
Proof.
  intros F B. split.
  - destruct (B 0%nat) as [v [V1 V2]]; [lia|]. assert (v = 2).
    { apply (tint_unique (b 0%nat)); auto. apply tint_ext with (fun t => cos t ^ 0); [intros t; rewrite (proj1 F); reflexivity|].
      pose proof (tint_pow 0) as T. simpl in T |- *. replace ((1 + 1) / (0 + 1)) with 2 in T by field. exact T. }
    subst. rewrite <- H. unfold rule. apply rsum_ext. intros i _. rewrite (proj1 F). ring.
  - intros j Hj. destruct (rule_span L om th b n B (fun t => eval_legendre j (cos t))) as [v [V1 V2]].
    + apply span_mono with j; [lia|]. apply span_legendre; auto.
    + rewrite V2. apply (tint_unique _ _ _ V1). apply tint_legendre. lia.
Qed.
