(** magls_bin: magnitudes, responses with a common delay. *)
From Verif Require Import Base BaseFacts M_utils M_sig M_process M_sph M_parsa2 M_parsa3 M_decoder4 S_grids S_lsq S_magls S_parsa3 P_utils P_sig P_parsa13 P_lsq P_magls1 P_magls2 P_magls3.
Open Scope R_scope.

(** ** fits: uniqueness, scaling, exactness *)
Lemma best_fit_unique Y t c c' : best_fit Y t c -> best_fit Y t c' -> forall j, (j < nc Y)%nat -> c j = c' j.
Proof.
  intros B B'. set (m := fun k => (c k + c' k) / 2).
  assert (E1 : misfit Y t m = (misfit Y t c + misfit Y t c') / 2 - rsum (nr Y) (fun g => (rsum (nc Y) (fun k => ent Y g k * c k) - rsum (nc Y) (fun k => ent Y g k * c' k)) ^ 2) / 4).
  { unfold misfit.
    set (s := rsum (nr Y) _). set (u := rsum (nr Y) (fun g => (rsum (nc Y) (fun k => ent Y g k * c k) - t g) ^ 2)).
    set (v := rsum (nr Y) (fun g => (rsum (nc Y) (fun k => ent Y g k * c' k) - t g) ^ 2)). set (w := rsum (nr Y) (fun g => (_ - _) ^ 2)).
    assert (s = / 2 * u + / 2 * v - / 4 * w); [|lra]. unfold s, u, v, w. rewrite <- !rsum_scal, <- rsum_plus, <- rsum_minus. apply rsum_ext. intros g Hg.
    replace (rsum (nc Y) (fun k => ent Y g k * m k)) with (/ 2 * rsum (nc Y) (fun k => ent Y g k * c k) + / 2 * rsum (nc Y) (fun k => ent Y g k * c' k)); [field|].
    rewrite <- !rsum_scal, <- rsum_plus. apply rsum_ext. intros k _. unfold m. field. }
  assert (E2 : size2 (nc Y) m = (size2 (nc Y) c + size2 (nc Y) c') / 2 - rsum (nc Y) (fun k => (c k - c' k) ^ 2) / 4).
  { unfold size2. assert (A : rsum (nc Y) (fun k => m k ^ 2) = / 2 * rsum (nc Y) (fun k => c k ^ 2) + / 2 * rsum (nc Y) (fun k => c' k ^ 2) - / 4 * rsum (nc Y) (fun k => (c k - c' k) ^ 2)); [|lra].
    rewrite <- !rsum_scal, <- rsum_plus, <- rsum_minus. apply rsum_ext. intros k _. unfold m. field. }
  set (w := rsum (nr Y) _) in E1. assert (W : 0 <= w) by (apply rsum_nonneg; intros; apply pow2_ge_0).
  pose proof (B c') as (A1 & A2). pose proof (B' c) as (A3 & A4). pose proof (B m) as (A5 & A6).
  assert (Q : misfit Y t c = misfit Y t c') by lra. assert (misfit Y t m = misfit Y t c) by lra.
  specialize (A2 ltac:(lra)). specialize (A4 ltac:(lra)). specialize (A6 ltac:(assumption)).
  assert (D : rsum (nc Y) (fun k => (c k - c' k) ^ 2) = 0).
  { pose proof (rsum_nonneg (nc Y) (fun k => (c k - c' k) ^ 2) (fun k _ => pow2_ge_0 _)). lra. }
  intros j Hj. pose proof (rsum_nonneg_0 (nc Y) _ (fun k _ => pow2_ge_0 _) D j Hj) as Z. cbn beta in Z.
  assert (c j - c' j = 0); [|lra]. apply Rsqr_0_uniq. rewrite Rsqr_pow2. exact Z.
Qed.
Lemma best_fit_scal Y t c s : best_fit Y t c -> best_fit Y (fun g => s * t g) (fun j => s * c j).
Proof.
  intros B. assert (M : forall d, misfit Y (fun g => s * t g) (fun j => s * d j) = s ^ 2 * misfit Y t d).
  { intros d. unfold misfit. rewrite <- rsum_scal. apply rsum_ext. intros g _.
    replace (rsum (nc Y) (fun k => ent Y g k * (s * d k))) with (s * rsum (nc Y) (fun k => ent Y g k * d k)); [ring|].
    rewrite <- rsum_scal. apply rsum_ext. intros. ring. }
  assert (Z2 : forall d, size2 (nc Y) (fun j => s * d j) = s ^ 2 * size2 (nc Y) d) by (intros d; unfold size2; rewrite <- rsum_scal; apply rsum_ext; intros; ring).
  assert (S2 : 0 <= s ^ 2) by apply pow2_ge_0.
  intros d'. destruct (Req_dec s 0) as [->|NZ].
  - rewrite M, Z2. replace (0 ^ 2) with 0 by ring. rewrite !Rmult_0_l. split; [unfold misfit; apply rsum_nonneg; intros; apply pow2_ge_0|].
    intros _. unfold size2. apply rsum_nonneg. intros. apply pow2_ge_0.
  - assert (E : misfit Y (fun g => s * t g) d' = s ^ 2 * misfit Y t (fun j => / s * d' j)).
    { rewrite <- M. unfold misfit. apply rsum_ext. intros g _. do 2 f_equal. apply rsum_ext. intros k _. field. exact NZ. }
    assert (E' : size2 (nc Y) d' = s ^ 2 * size2 (nc Y) (fun j => / s * d' j)).
    { rewrite <- Z2. unfold size2. apply rsum_ext. intros k _. f_equal. field. exact NZ. }
    destruct (B (fun j => / s * d' j)) as (B1 & B2). rewrite M, Z2, E, E'. split; [apply Rmult_le_compat_l; assumption|].
    intros Q. apply Rmult_le_compat_l; [exact S2|]. apply B2. apply Rmult_eq_reg_l in Q; [exact Q|]. intros Z. apply NZ. apply Rsqr_0_uniq. rewrite Rsqr_pow2. exact Z.
Qed.
Lemma cfit_unique Y t c c' : cfit Y t c -> cfit Y t c' -> forall j, (j < nc Y)%nat -> c j = c' j.
Proof.
  intros (A & B) (A' & B') j Hj. pose proof (best_fit_unique _ _ _ _ A A' j Hj) as E1. pose proof (best_fit_unique _ _ _ _ B B' j Hj) as E2. cbn beta in *.
  rewrite (surjective_pairing (c j)), (surjective_pairing (c' j)), E1, E2. reflexivity.
Qed.
Lemma cfit_polar Y a b f : best_fit Y a b -> cfit Y (fun g => polar (a g) f) (fun j => polar (b j) f).
Proof.
  intros B. split; unfold polar; cbn [fst snd].
  - eapply best_fit_ext; [| |exact (best_fit_scal Y a b (cos f) B)]; intros; cbn beta; ring.
  - eapply best_fit_ext; [| |exact (best_fit_scal Y a b (sin f) B)]; intros; cbn beta; ring.
Qed.
(** directions no more than coefficients, independent: the fit is exact *)
Lemma exact_fit Y t c : right_invertible Y -> best_fit Y t c -> forall g, (g < nr Y)%nat -> rsum (nc Y) (fun j => ent Y g j * c j) = t g.
Proof.
  intros (X & HX) B. set (d := fun j => rsum (nr Y) (fun q => ent X j q * t q)).
  assert (D : forall g, (g < nr Y)%nat -> rsum (nc Y) (fun j => ent Y g j * d j) = t g).
  { intros g Hg. unfold d. rewrite (rsum_ext _ _ (fun j => rsum (nr Y) (fun q => ent Y g j * ent X j q * t q))).
    2: { intros j _. rewrite <- rsum_scal. apply rsum_ext. intros. ring. }
    rewrite rsum_swap. rewrite (rsum_single (nr Y) g); [|exact Hg|].
    - rewrite rsum_scal_r. change (rsum (nc Y) (fun j => ent Y g j * ent X j g)) with (mprod (nc Y) Y X g g). rewrite HX by assumption. unfold delta. rewrite Nat.eqb_refl. ring.
    - intros q Hq NE. rewrite rsum_scal_r. change (rsum (nc Y) (fun j => ent Y g j * ent X j q)) with (mprod (nc Y) Y X g q). rewrite HX by assumption. unfold delta. rewrite (proj2 (Nat.eqb_neq g q)) by auto. ring. }
  assert (M0 : misfit Y t c = 0).
  { destruct (B d) as (L & _). assert (MD : misfit Y t d = 0) by (unfold misfit; apply rsum_0; intros g Hg; rewrite D by exact Hg; ring).
    assert (0 <= misfit Y t c) by (unfold misfit; apply rsum_nonneg; intros; apply pow2_ge_0). lra. }
  intros g Hg. pose proof (rsum_nonneg_0 (nr Y) _ (fun q _ => pow2_ge_0 _) M0 g Hg) as Z. cbn beta in Z.
  assert (rsum (nc Y) (fun j => ent Y g j * c j) - t g = 0); [|lra]. apply Rsqr_0_uniq. rewrite Rsqr_pow2. exact Z.
Qed.
Lemma exact_cfit Y t c g : right_invertible Y -> cfit Y t c -> (g < nr Y)%nat -> decoded Y c g = t g.
Proof.
  intros RI (A & B) Hg. unfold decoded. pose proof (exact_fit _ _ _ RI A g Hg) as E1. pose proof (exact_fit _ _ _ RI B g Hg) as E2. cbn beta in *.
  rewrite E1, E2. symmetry. apply surjective_pairing.
Qed.
Lemma modulus_polar r f : 0 <= r -> modulus (polar r f) = r.
Proof.
  intros R0. unfold modulus, polar. cbn [fst snd]. pose proof (sin2_cos2 f) as E. unfold Rsqr in E.
  replace ((r * cos f) ^ 2 + (r * sin f) ^ 2) with (r * r * (sin f * sin f + cos f * cos f)) by ring. rewrite E, Rmult_1_r. apply sqrt_square. exact R0.
Qed.
Lemma spectrum_exact Y H kc bins cont s c : right_invertible Y -> magls_spectrum Y H kc bins cont s c ->
  forall k g, (k < bins)%nat -> (g < nr Y)%nat -> ((k < kc)%nat -> decoded Y (c k) g = H g k) /\ modulus (decoded Y (c k) g) = modulus (H g k).
Proof.
  intros RI (delta & _ & F) k g Hk Hg. destruct (F k Hk) as (A & B). destruct (Nat.lt_ge_cases k kc) as [C|C].
  - pose proof (exact_cfit _ _ _ g RI (A C) Hg) as E. cbn beta in E. split; [intros _; exact E|rewrite E; reflexivity].
  - pose proof (exact_cfit _ _ _ g RI (B C) Hg) as E. cbn beta in E. split; [lia|]. rewrite E. apply modulus_polar. apply sqrt_pos.
Qed.

(** ** phases *)
Lemma period_Z_cos x (m : Z) : cos (x + 2 * PI * IZR m) = cos x.
Proof.
  destruct (Z.le_ge_cases 0 m) as [H|H].
  - replace (IZR m) with (INR (Z.to_nat m)) by (rewrite INR_IZR_INZ; f_equal; lia). replace (x + 2 * PI * INR (Z.to_nat m)) with (x + 2 * INR (Z.to_nat m) * PI) by ring. apply cos_period.
  - rewrite <- (cos_period (x + 2 * PI * IZR m) (Z.to_nat (- m))). f_equal. replace (INR (Z.to_nat (- m))) with (IZR (- m)) by (rewrite INR_IZR_INZ; f_equal; lia). rewrite opp_IZR. ring.
Qed.
Lemma period_Z_sin x (m : Z) : sin (x + 2 * PI * IZR m) = sin x.
Proof.
  destruct (Z.le_ge_cases 0 m) as [H|H].
  - replace (IZR m) with (INR (Z.to_nat m)) by (rewrite INR_IZR_INZ; f_equal; lia). replace (x + 2 * PI * INR (Z.to_nat m)) with (x + 2 * INR (Z.to_nat m) * PI) by ring. apply sin_period.
  - rewrite <- (sin_period (x + 2 * PI * IZR m) (Z.to_nat (- m))). f_equal. replace (INR (Z.to_nat (- m))) with (IZR (- m)) by (rewrite INR_IZR_INZ; f_equal; lia). rewrite opp_IZR. ring.
Qed.
Lemma polar_period r f (m : Z) : polar r (f + 2 * PI * IZR m) = polar r f.
Proof. unfold polar. rewrite period_Z_cos, period_Z_sin. reflexivity. Qed.
Lemma arg_polar r f : 0 < r -> exists m : Z, arg (polar r f) = f + 2 * PI * IZR m.
Proof.
  intros R0. pose proof PI_RGT_0 as HP. set (q := Int_part ((PI - f) / (2 * PI))). exists q.
  assert (B : IZR q <= (PI - f) / (2 * PI) < IZR q + 1) by (unfold q; pose proof (base_Int_part ((PI - f) / (2 * PI))); lra).
  assert (B2 : 2 * PI * IZR q <= PI - f < 2 * PI * IZR q + 2 * PI).
  { replace (PI - f) with (2 * PI * ((PI - f) / (2 * PI))) by (field; lra). split; [apply Rmult_le_compat_l; lra|].
    replace (2 * PI * IZR q + 2 * PI) with (2 * PI * (IZR q + 1)) by ring. apply Rmult_lt_compat_l; lra. }
  unfold arg. apply arctan2_unique with (rho := r); [exact R0|lra| |]; unfold polar; cbn [fst snd]; rewrite ?period_Z_cos, ?period_Z_sin; reflexivity.
Qed.
Lemma unwrap_line n p u th : Rabs th < PI -> (forall k, (k < n)%nat -> exists m : Z, p k = th * INR k + 2 * PI * IZR m) -> unwrapped n p u ->
  forall k, (S k < n)%nat -> u (S k) = u k + th.
Proof.
  intros T L (_ & U & S') k Hk. pose proof PI_RGT_0 as HP. destruct (U k ltac:(lia)) as (m1 & E1). destruct (U (S k) Hk) as (m2 & E2).
  destruct (L k ltac:(lia)) as (m3 & E3). destruct (L (S k) Hk) as (m4 & E4). specialize (S' k Hk). rewrite S_INR in E4.
  assert (D : u (S k) - u k = th + 2 * PI * IZR (m2 + m4 - m1 - m3)) by (rewrite !minus_IZR, plus_IZR; lra).
  set (M := (m2 + m4 - m1 - m3)%Z) in *. rewrite D in S'.
  assert (M = 0)%Z; [|rewrite H in D; lra]. apply Rabs_def2 in T. 
  assert (A : - PI <= th + 2 * PI * IZR M <= PI) by (revert S'; unfold Rabs; destruct (Rcase_abs _); lra).
  assert (IZR M < 1) by (apply Rmult_lt_reg_l with (2 * PI); lra). assert (-1 < IZR M) by (apply Rmult_lt_reg_l with (2 * PI); lra).
  apply lt_IZR in H. apply lt_IZR in H0. lia.
Qed.
Lemma line_increment kc p th d : (5 < kc)%nat -> Rabs th < PI -> (forall k, (k < kc)%nat -> exists m : Z, p k = th * INR k + 2 * PI * IZR m) ->
  mean_increment kc p d -> d = th.
Proof.
  intros K T L (u & U & ->). pose proof (unwrap_line kc p u th T L U) as S'.
  pose proof (S' (kc - 6)%nat ltac:(lia)) as A. pose proof (S' (kc - 5)%nat ltac:(lia)) as B. pose proof (S' (kc - 4)%nat ltac:(lia)) as C. pose proof (S' (kc - 3)%nat ltac:(lia)) as D.
  replace (S (kc - 6)) with (kc - 5)%nat in A by lia. replace (S (kc - 5)) with (kc - 4)%nat in B by lia.
  replace (S (kc - 4)) with (kc - 3)%nat in C by lia. replace (S (kc - 3)) with (kc - 2)%nat in D by lia. lra.
Qed.

Section LINE.
  Variables (Y : mat) (H : nat -> nat -> C2) (kc bins : nat) (cont : hfcont) (shift theta : R) (a : nat -> nat -> R) (c : nat -> nat -> C2) (r : nat -> nat -> R).
  Hypothesis T : Rabs theta < PI.
  Hypothesis CN : continues cont theta shift.
  Hypothesis K1 : (1 <= kc)%nat.
  Hypothesis KB : (kc <= bins)%nat.
  Hypothesis A0 : forall g k, (g < nr Y)%nat -> (k < bins)%nat -> 0 <= a g k.
  Hypothesis HA : forall g k, (g < nr Y)%nat -> (k < bins)%nat -> H g k = polar (a g k) (theta * INR k).
  Hypothesis RF : forall k, (k < bins)%nat -> best_fit Y (fun g => a g k) (r k).
  Hypothesis R0 : forall k, (k < bins)%nat -> 0 < r k 0%nat.
  Hypothesis RG : forall k g, (k < bins)%nat -> (g < nr Y)%nat -> 0 < rsum (nc Y) (fun j => ent Y g j * r k j).
  Hypothesis N1 : (1 <= nc Y)%nat.
  Hypothesis MS : magls_spectrum Y H kc bins cont shift c.
  Lemma decoded_line k g : (forall j, (j < nc Y)%nat -> c k j = polar (r k j) (theta * INR k)) ->
    decoded Y (c k) g = polar (rsum (nc Y) (fun j => ent Y g j * r k j)) (theta * INR k).
  Proof.
    intros E. unfold decoded, polar. rewrite <- !rsum_scal_r. f_equal; apply rsum_ext; intros j Hj; rewrite (E j Hj); unfold polar; cbn [fst snd]; ring.
  Qed.
  Lemma low k j : (k < kc)%nat -> (j < nc Y)%nat -> c k j = polar (r k j) (theta * INR k).
  Proof.
    intros Hk Hj. destruct MS as (delta & _ & F). destruct (F k ltac:(lia)) as (A & _).
    refine (cfit_unique Y _ _ (fun j => polar (r k j) (theta * INR k)) (A Hk) _ j Hj).
    eapply cfit_ext; [| |exact (cfit_polar Y _ _ (theta * INR k) (RF k ltac:(lia)))]; [|reflexivity]. intros g Hg. cbn beta. rewrite HA by (assumption || lia). reflexivity.
  Qed.
  Lemma line k : (k < bins)%nat -> forall j, (j < nc Y)%nat -> c k j = polar (r k j) (theta * INR k).
  Proof.
    pose proof low as LOW. pose proof decoded_line as DL. pose proof MS as (delta & PS & F).
    assert (D : forall g, (g < nr Y)%nat -> delta g - shift = theta).
    { intros g Hg. destruct cont; cbn [phase_step continues] in *.
      - destruct PS as (K5 & d & MI & ED). rewrite ED by exact Hg. rewrite CN, Rminus_0_r. apply (line_increment kc _ theta d K5 T) in MI; [exact MI|].
        intros k' Hk'. cbn beta. rewrite LOW by lia. apply arg_polar. apply R0. lia.
      - destruct PS as (K5 & MI). specialize (MI g Hg). rewrite CN, Rminus_0_r. apply (line_increment kc _ theta _ K5 T) in MI; [exact MI|].
        intros k' Hk'. cbn beta. rewrite (DL k' g) by (intros; apply LOW; lia). apply arg_polar. apply RG; lia.
      - rewrite PS by exact Hg. lra.
      - contradiction. }
    induction k as [|k IH]; intros Hk j Hj; [apply low; lia|]. destruct (Nat.lt_ge_cases (S k) kc) as [C|C]; [apply low; assumption|].
    destruct (F (S k) Hk) as (_ & B). refine (cfit_unique Y _ _ (fun j => polar (r (S k) j) (theta * INR (S k))) (B C) _ j Hj).
    eapply cfit_ext; [| |exact (cfit_polar Y _ _ (theta * INR (S k)) (RF (S k) Hk))]; [|reflexivity]. intros g Hg. cbn beta.
    rewrite HA by assumption. rewrite modulus_polar by (apply A0; assumption). rewrite (decoded_line k g) by (apply IH; lia).
    destruct (arg_polar (rsum (nc Y) (fun j0 => ent Y g j0 * r k j0)) (theta * INR k)) as (m & Em); [apply RG; lia|].
    rewrite Em, (D g Hg), S_INR. replace (theta * INR k + 2 * PI * IZR m + theta) with (theta * (INR k + 1) + 2 * PI * IZR m) by ring.
    rewrite polar_period. reflexivity.
  Qed.
  (** so that every bin is the plain fit *)
  Lemma line_fit k : (k < bins)%nat -> cfit Y (fun g => H g k) (c k).
  Proof.
    intros Hk. eapply cfit_ext; [| |exact (cfit_polar Y _ _ (theta * INR k) (RF k Hk))].
    - intros g Hg. cbn beta. symmetry. apply HA; assumption.
    - intros j Hj. symmetry. apply line; assumption.
  Qed.
End LINE.

(** ** back to time *)
Lemma synth_lin G (p : nat -> R) (X : nat -> nat -> C2) m t :
  synth m (fun k => (rsum G (fun g => p g * fst (X g k)), rsum G (fun g => p g * snd (X g k)))) t = rsum G (fun g => p g * synth m (X g) t).
Proof.
  induction G as [|G IH]; [cbn [rsum]; unfold synth; cbn [fst snd]; rewrite (rsum_0 (m - 1)); [ring|intros; ring]|].
  cbn [rsum]. rewrite <- IH. clear IH. unfold synth. cbn [fst snd].
  match goal with |- / _ * (?A + ?s * ?B + ?S1) = / _ * (?A' + ?s * ?B' + ?S2) + ?q * (/ _ * (?A'' + ?s * ?B'' + ?S3)) => assert (E : S1 = S2 + q * S3) end.
  { rewrite <- rsum_scal, <- rsum_plus. apply rsum_ext. intros. ring. }
  rewrite E. ring.
Qed.
Lemma pow_m1_cos t : (-1) ^ t = cos (PI * INR t).
Proof.
  induction t as [|t IH]; [simpl; rewrite Rmult_0_r, cos_0; reflexivity|].
  rewrite S_INR. replace (PI * (INR t + 1)) with (PI * INR t + PI) by ring. rewrite neg_cos, <- IH. cbn [pow]. ring.
Qed.
Lemma fold_even m (f : nat -> R) : (1 <= m)%nat -> (forall k, (k < m)%nat -> f (2 * m - k)%nat = f k) ->
  rsum (2 * m) f = f 0%nat + f m + rsum (m - 1) (fun i => 2 * f (S i)).
Proof.
  intros M E. replace (2 * m)%nat with (m + m)%nat by lia. rewrite rsum_app.
  assert (A : rsum m f = f 0%nat + rsum (m - 1) (fun i => f (S i))) by (destruct m; [lia|]; rewrite rsum_shift; replace (S m - 1)%nat with m by lia; ring).
  assert (B : rsum m (fun i => f (m + i)%nat) = f m + rsum (m - 1) (fun i => f (m + S i)%nat)).
  { destruct m; [lia|]. rewrite rsum_shift. rewrite Nat.add_0_r. replace (S m - 1)%nat with m by lia. ring. }
  assert (C : rsum (m - 1) (fun i => f (m + S i)%nat) = rsum (m - 1) (fun i => f (S i))).
  { rewrite (rsum_rev (m - 1) (fun i => f (S i))). apply rsum_ext. intros i Hi. rewrite <- (E (S (m - 1 - 1 - i))) by lia. f_equal. lia. }
  rewrite A, B, C, rsum_scal. ring.
Qed.

(** the transform and its inverse, even length *)
Lemma synth_dft m x t : (1 <= m)%nat -> (t < 2 * m)%nat -> synth m (dft (2 * m) x) t = nth t x 0.
Proof.
  intros M Ht. set (n := (2 * m)%nat). assert (N0 : INR n <> 0) by (apply not_0_INR; unfold n; lia).
  assert (NM : INR n = 2 * INR m) by (unfold n; rewrite mult_INR; simpl (INR 2); ring). assert (M0 : INR m <> 0) by (apply not_0_INR; lia).
  set (D := fun j => (Z.of_nat t - Z.of_nat j)%Z).
  transitivity (rsum n (fun j => nth j x 0 * kernel n (fun _ => 1) (D j))).
  2: { rewrite (rsum_single n t); [|exact Ht|].
       - rewrite kernel_one by (unfold D, n; lia). unfold D. rewrite Z.sub_diag. cbn [Z.eqb]. ring.
       - intros j Hj NE. rewrite kernel_one by (unfold D; lia). destruct (Z.eqb_spec (D j) 0); [unfold D in *; lia|]. ring. }
  set (f := fun (j k : nat) => cos (2 * PI * INR k * IZR (D j) / INR n)).
  assert (F : forall j, kernel n (fun _ => 1) (D j) = / INR n * (f j 0%nat + f j m + rsum (m - 1) (fun i => 2 * f j (S i)))).
  { intros j. unfold kernel. f_equal. rewrite <- (fold_even m (f j) M).
    - apply rsum_ext. intros k _. unfold f. ring.
    - intros k Hk. unfold f. fold n. rewrite minus_INR by (unfold n; lia).
      replace (2 * PI * (INR n - INR k) * IZR (D j) / INR n) with (- (2 * PI * INR k * IZR (D j) / INR n) + 2 * PI * IZR (D j)) by (field; exact N0).
      rewrite period_Z_cos. apply cos_neg. }
  assert (C : forall j k, f j k = cos (2 * PI * INR (j * k) / INR n) * cos (2 * PI * INR (k * t) / INR n) + sin (2 * PI * INR (j * k) / INR n) * sin (2 * PI * INR (k * t) / INR n)).
  { intros j k. rewrite <- cos_minus. unfold f, D. rewrite minus_IZR, <- !INR_IZR_INZ, !mult_INR.
    replace (2 * PI * INR k * (INR t - INR j) / INR n) with (- (2 * PI * (INR j * INR k) / INR n - 2 * PI * (INR k * INR t) / INR n)) by (field; exact N0). apply cos_neg. }
  rewrite (rsum_ext n _ (fun j => / INR n * (nth j x 0 * f j 0%nat + nth j x 0 * f j m + rsum (m - 1) (fun i => 2 * (nth j x 0 * f j (S i)))))).
  2: { intros j _. rewrite F. assert (Q : rsum (m - 1) (fun i => 2 * (nth j x 0 * f j (S i))) = nth j x 0 * rsum (m - 1) (fun i => 2 * f j (S i))) by (rewrite <- rsum_scal; apply rsum_ext; intros; ring).
       rewrite Q. ring. }
  rewrite rsum_scal, !rsum_plus, rsum_swap. unfold synth. fold n. unfold dft. cbn [fst snd]. f_equal. f_equal; [f_equal|].
  - apply rsum_ext. intros j _. unfold f. rewrite Nat.mul_0_r. simpl (INR 0). do 2 f_equal. field. exact N0.
  - rewrite <- rsum_scal. apply rsum_ext. intros j _. rewrite C, pow_m1_cos. rewrite !mult_INR, NM.
    replace (2 * PI * (INR m * INR t) / (2 * INR m)) with (PI * INR t) by (field; exact M0).
    replace (2 * PI * (INR j * INR m) / (2 * INR m)) with (PI * INR j) by (field; exact M0).
    assert (S0 : forall q, sin (PI * INR q) = 0).
    { induction q as [|q IH]; [simpl; rewrite Rmult_0_r; apply sin_0|]. rewrite S_INR. replace (PI * (INR q + 1)) with (PI * INR q + PI) by ring. rewrite neg_sin, IH. ring. }
    rewrite !S0. ring.
  - apply rsum_ext. intros i _. rewrite rsum_scal. f_equal. rewrite (rsum_ext n (fun j => nth j x 0 * f j (S i))
      (fun j => cos (2 * PI * INR (S i * t) / INR n) * (nth j x 0 * cos (2 * PI * INR (j * S i) / INR n)) + sin (2 * PI * INR (S i * t) / INR n) * (nth j x 0 * sin (2 * PI * INR (j * S i) / INR n)))).
    2: { intros j _. rewrite C. ring. }
    rewrite rsum_plus, !rsum_scal. ring.
Qed.
