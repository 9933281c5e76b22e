(** Mode strengths. *)
From Verif Require Import Base M_utils M_sig M_process M_sph M_sph2 S_sph2 P_sph1 P_sph14.
Open Scope R_scope.
Notation jn n := (fun z => spherical_jn n z false).
Notation jd n := (fun z => spherical_jn n z true).
Notation yn n := (fun z => num (spherical_yn n z false)).
Notation yd n := (fun z => num (spherical_yn n z true)).

Lemma eqb_no z : z <> 0 -> Reqb z 0 = false.
Proof. intros H. unfold Reqb. destruct (Req_EM_T z 0); [contradiction|reflexivity]. Qed.
Lemma jn_ok n z b : z <> 0 -> spherical_jn n z b = if b then bessel_d j0 j1 n z else bessel j0 j1 n z.
Proof. intros H. unfold spherical_jn. rewrite eqb_no by exact H. reflexivity. Qed.
Lemma yn_ok n z b : z <> 0 -> spherical_yn n z b = Some (if b then bessel_d y0 y1 n z else bessel y0 y1 n z).
Proof. intros H. unfold spherical_yn. rewrite eqb_no by exact H. reflexivity. Qed.
Lemma jn_solves n : solves_bessel n (jn n) (jd n).
Proof.
  destruct (bessel_solves j0 j1 d_j0 d_j1 n) as [dd H]. exists dd. intros z Hz. destruct (H z Hz) as (A & B & C).
  rewrite (jn_ok n z true), (jn_ok n z false) by exact Hz. split; [|split; [|exact C]].
  - apply dpl_away with (bessel j0 j1 n); [exact Hz| |exact A]. intros y Hy. rewrite jn_ok by exact Hy. reflexivity.
  - apply dpl_away with (bessel_d j0 j1 n); [exact Hz| |exact B]. intros y Hy. rewrite jn_ok by exact Hy. reflexivity.
Qed.
Lemma yn_solves n : solves_bessel n (yn n) (yd n).
Proof.
  destruct (bessel_solves y0 y1 d_y0 d_y1 n) as [dd H]. exists dd. intros z Hz. destruct (H z Hz) as (A & B & C).
  rewrite (yn_ok n z true), (yn_ok n z false) by exact Hz. cbn [num]. split; [|split; [|exact C]].
  - apply dpl_away with (bessel y0 y1 n); [exact Hz| |exact A]. intros y Hy. rewrite yn_ok by exact Hy. reflexivity.
  - apply dpl_away with (bessel_d y0 y1 n); [exact Hz| |exact B]. intros y Hy. rewrite yn_ok by exact Hy. reflexivity.
Qed.
Lemma jn_deriv n z : z <> 0 -> derivable_pt_lim (jn n) z (spherical_jn n z true).
Proof. intros Hz. destruct (jn_solves n) as [dd H]. exact (proj1 (H z Hz)). Qed.
Lemma yn_deriv n z : z <> 0 -> derivable_pt_lim (yn n) z (num (spherical_yn n z true)).
Proof. intros Hz. destruct (yn_solves n) as [dd H]. exact (proj1 (H z Hz)). Qed.
Lemma jy_wronski n z : z <> 0 ->
  spherical_jn n z false * num (spherical_yn n z true) - spherical_jn n z true * num (spherical_yn n z false) = 1 / z ^ 2.
Proof. intros Hz. rewrite (jn_ok n z true), (jn_ok n z false), (yn_ok n z true), (yn_ok n z false) by exact Hz. cbn [num]. apply wronski. exact Hz. Qed.
Lemma hd_pos n z : z <> 0 -> 0 < spherical_jn n z true ^ 2 + num (spherical_yn n z true) ^ 2.
Proof.
  intros Hz. pose proof (jy_wronski n z Hz) as W.
  set (a := spherical_jn n z true) in *. set (b := num (spherical_yn n z true)) in *.
  assert (Q : 0 <= a ^ 2 + b ^ 2) by (pose proof (pow2_ge_0 a); pose proof (pow2_ge_0 b); lra).
  destruct Q as [Q|Q]; [exact Q|exfalso].
  assert (A0 : a = 0) by (pose proof (pow2_ge_0 a); pose proof (pow2_ge_0 b); assert (K : a ^ 2 = 0) by lra; cbn [pow] in K; rewrite Rmult_1_r in K; destruct (Rmult_integral _ _ K); assumption).
  assert (B0 : b = 0) by (pose proof (pow2_ge_0 a); pose proof (pow2_ge_0 b); assert (K : b ^ 2 = 0) by lra; cbn [pow] in K; rewrite Rmult_1_r in K; destruct (Rmult_integral _ _ K); assumption).
  rewrite A0, B0 in W. assert (P : 0 < z ^ 2) by (cbn [pow]; rewrite Rmult_1_r; apply Rsqr_pos_lt; exact Hz).
  assert (0 < 1 / z ^ 2) by (apply Rdiv_lt_0_compat; lra). lra.
Qed.
Lemma ipow_trig n : ipow n = (cos (INR n * (PI / 2)), sin (INR n * (PI / 2))).
Proof.
  induction n as [|n IH]; [cbn [ipow]; simpl INR; rewrite Rmult_0_l, cos_0, sin_0; reflexivity|].
  cbn [ipow]. rewrite IH, S_INR. unfold cmul. cbn [fst snd].
  replace ((INR n + 1) * (PI / 2)) with (INR n * (PI / 2) + PI / 2) by ring. rewrite cos_plus, sin_plus, cos_PI2, sin_PI2. f_equal; ring.
Qed.
Lemma ipow_abs n : fst (ipow n) ^ 2 + snd (ipow n) ^ 2 = 1.
Proof. rewrite ipow_trig. cbn [fst snd]. pose proof (sin2_cos2 (INR n * (PI / 2))) as S. unfold Rsqr in S. cbn [pow]. lra. Qed.

(** the amplitude the model computes *)
Definition rigid_amp (n : nat) (z : R) : C2 :=
  let a := spherical_jn n z true in let b := num (spherical_yn n z true) in let d := a ^ 2 + b ^ 2 in
  cmul (cscal (4 * PI) (ipow n)) (b / (z ^ 2 * d), - (a / (z ^ 2 * d))).
Lemma rigid_value n z : z <> 0 -> mode_strength n z Rigid = Ok (Some (rigid_amp n z)).
Proof.
  intros Hz. pose proof (hd_pos n z Hz) as P. pose proof (jy_wronski n z Hz) as W. unfold mode_strength, spherical_hn2, rigid_amp.
  rewrite (yn_ok n z true), (yn_ok n z false) by exact Hz. rewrite (yn_ok n z true) in P, W by exact Hz. rewrite (yn_ok n z false) in W by exact Hz. cbn [num] in *.
  set (a := spherical_jn n z true) in *. set (j := spherical_jn n z false) in *.
  set (b := if true then bessel_d y0 y1 n z else bessel y0 y1 n z) in *. set (y := if false then bessel_d y0 y1 n z else bessel y0 y1 n z) in *.
  clearbody a b j y. unfold cdiv. cbn [fst snd]. rewrite eqb_no by (replace (a ^ 2 + (- b) ^ 2) with (a ^ 2 + b ^ 2) by ring; lra).
  f_equal. f_equal. f_equal. unfold cadd, cscal, cmul. cbn [fst snd].
  assert (E : b / (z ^ 2 * (a ^ 2 + b ^ 2)) = (j * b - a * y) * b / (a ^ 2 + b ^ 2)) by (rewrite W; field; split; first [exact Hz|lra]).
  assert (F : a / (z ^ 2 * (a ^ 2 + b ^ 2)) = (j * b - a * y) * a / (a ^ 2 + b ^ 2)) by (rewrite W; field; split; first [exact Hz|lra]).
  rewrite E, F. replace (a ^ 2 + (- b) ^ 2) with (a ^ 2 + b ^ 2) by ring. f_equal; field; lra.
Qed.
Lemma rigid_zero n : mode_strength n 0 Rigid = Ok None.
Proof.
  unfold mode_strength, spherical_hn2, spherical_yn. replace (Reqb 0 0) with true; [reflexivity|].
  unfold Reqb. destruct (Req_EM_T 0 0); [reflexivity|contradiction].
Qed.
Lemma rigid_iff n z b : z <> 0 -> (mode_strength n z Rigid = Ok (Some b) <-> rigid_scatter n (jn n) (yn n) z b).
Proof.
  intros Hz. rewrite rigid_value by exact Hz. pose proof (hd_pos n z Hz) as P. pose proof (jy_wronski n z Hz) as W.
  pose proof (jn_deriv n z Hz) as DJ. pose proof (yn_deriv n z Hz) as DY. unfold rigid_scatter. rewrite <- ipow_trig. unfold rigid_amp. cbn zeta.
  set (a := spherical_jn n z true) in *. set (j := spherical_jn n z false) in *.
  set (e := num (spherical_yn n z true)) in *. set (y := num (spherical_yn n z false)) in *.
  assert (DR : forall u v, derivable_pt_lim (fun z => spherical_jn n z false + (u * spherical_jn n z false + v * num (spherical_yn n z false))) z (a + (u * a + v * e))).
  { intros u v. exact (derivable_pt_lim_plus _ _ z _ _ DJ (derivable_pt_lim_plus _ _ z _ _ (derivable_pt_lim_scal _ u z _ DJ) (derivable_pt_lim_scal _ v z _ DY))). }
  assert (DI : forall u v, derivable_pt_lim (fun z => v * spherical_jn n z false - u * num (spherical_yn n z false)) z (v * a - u * e)).
  { intros u v. exact (derivable_pt_lim_minus _ _ z _ _ (derivable_pt_lim_scal _ v z _ DJ) (derivable_pt_lim_scal _ u z _ DY)). }
  clearbody a e.
  assert (E : e / (z ^ 2 * (a ^ 2 + e ^ 2)) = (j * e - a * y) * e / (a ^ 2 + e ^ 2)) by (rewrite W; field; split; first [exact Hz|lra]).
  assert (F : a / (z ^ 2 * (a ^ 2 + e ^ 2)) = (j * e - a * y) * a / (a ^ 2 + e ^ 2)) by (rewrite W; field; split; first [exact Hz|lra]).
  split.
  - intros H. injection H as <-. exists (- (a ^ 2 / (a ^ 2 + e ^ 2)), - (a * e / (a ^ 2 + e ^ 2))). cbn [fst snd]. split; [|split].
    + eapply dpl_val; [|apply DR]. field. lra.
    + eapply dpl_val; [|apply DI]. field. lra.
    + f_equal. fold j y. transitivity (e / (z ^ 2 * (a ^ 2 + e ^ 2)), - (a / (z ^ 2 * (a ^ 2 + e ^ 2)))); [reflexivity|]. rewrite E, F. clearbody j y. f_equal; field; lra.
  - intros ([u v] & D1 & D2 & ->). cbn [fst snd] in *.
    pose proof (uniqueness_limite _ _ _ _ (DR u v) D1) as U1. pose proof (uniqueness_limite _ _ _ _ (DI u v) D2) as U2.
    assert (Hu : u = - (a ^ 2 / (a ^ 2 + e ^ 2))).
    { apply Rmult_eq_reg_r with (a ^ 2 + e ^ 2); [|lra]. replace (- (a ^ 2 / (a ^ 2 + e ^ 2)) * (a ^ 2 + e ^ 2)) with (- a ^ 2) by (field; lra).
      replace (u * (a ^ 2 + e ^ 2)) with (a * (a + (u * a + v * e)) - e * (v * a - u * e) - a ^ 2) by ring. rewrite U1, U2. ring. }
    assert (Hv : v = - (a * e / (a ^ 2 + e ^ 2))).
    { apply Rmult_eq_reg_r with (a ^ 2 + e ^ 2); [|lra]. replace (- (a * e / (a ^ 2 + e ^ 2)) * (a ^ 2 + e ^ 2)) with (- (a * e)) by (field; lra).
      replace (v * (a ^ 2 + e ^ 2)) with (e * (a + (u * a + v * e)) + a * (v * a - u * e) - a * e) by ring. rewrite U1, U2. ring. }
    subst u v. fold j y. f_equal. f_equal. f_equal. rewrite E, F. clearbody j y. f_equal; field; lra.
Qed.
Lemma cabs2_eq z : cabs2 z = fst z ^ 2 + snd z ^ 2.
Proof. unfold cabs2. rewrite pow2_sqrt; [reflexivity|]. pose proof (pow2_ge_0 (fst z)). pose proof (pow2_ge_0 (snd z)). lra. Qed.
Lemma amp_size s n p q : cabs2 (cmul (cscal s (ipow n)) (p, q)) = s ^ 2 * (p ^ 2 + q ^ 2).
Proof.
  rewrite cabs2_eq. unfold cmul, cscal. cbn [fst snd]. pose proof (ipow_abs n) as I. set (u := fst (ipow n)) in *. set (v := snd (ipow n)) in *.
  replace ((s * u * p - s * v * q) ^ 2 + (s * u * q + s * v * p) ^ 2) with (s ^ 2 * (p ^ 2 + q ^ 2) * (u ^ 2 + v ^ 2)) by ring. rewrite I. ring.
Qed.
Notation power n kr := (scatter_power (spherical_jn n kr true) (num (spherical_yn n kr true)) kr).
Lemma power_pos n z : z <> 0 -> 0 < power n z.
Proof.
  intros Hz. unfold scatter_power. pose proof (hd_pos n z Hz). apply Rdiv_lt_0_compat; [lra|]. apply Rmult_lt_0_compat; [|exact H].
  replace (z ^ 4) with (Rsqr (z * z)) by (unfold Rsqr; ring). apply Rsqr_pos_lt. apply Rmult_integral_contrapositive. split; exact Hz.
Qed.
Lemma rigid_size n z : z <> 0 -> cabs2 (rigid_amp n z) = (4 * PI) ^ 2 * power n z.
Proof.
  intros Hz. unfold rigid_amp. cbn zeta. rewrite amp_size. f_equal. unfold scatter_power. pose proof (hd_pos n z Hz) as P.
  set (a := spherical_jn n z true) in *. set (b := num (spherical_yn n z true)) in *. clearbody a b. field. split; first [exact Hz|lra].
Qed.
Lemma power_0 z : z <> 0 -> power 0 z = 1 / (1 + z ^ 2).
Proof.
  intros Hz. unfold scatter_power. rewrite jn_ok, yn_ok by exact Hz. cbn [num]. unfold bessel_d, bessel. cbn [bessel_pair fst snd]. simpl INR.
  assert (Z2 : 0 < z ^ 2) by (cbn [pow]; rewrite Rmult_1_r; apply Rsqr_pos_lt; exact Hz).
  f_equal. replace (0 / z * j0 z - j1 z) with (- j1 z) by (field; exact Hz). replace (0 / z * y0 z - y1 z) with (- y1 z) by (field; exact Hz).
  unfold j1, y1. pose proof (sin2_cos2 z) as S. unfold Rsqr in S.
  transitivity ((sin z * sin z + cos z * cos z) * (1 + z ^ 2)); [field; exact Hz|rewrite S; ring].
Qed.
