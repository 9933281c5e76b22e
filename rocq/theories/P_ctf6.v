(** resample_spectrum; the transform of a synthesised signal. *)
From Verif Require Import Base BaseFacts M_utils M_sig M_process M_sph M_grids M_parsa2 M_parsa3 M_decoder4 M_process2 S_process S_decoder3 S_parsa3 S_magls S_ctf P_utils P_sig P_parsa9 P_parsa13 P_magls1 P_magls2 P_magls3 P_magls4 P_magls5 P_ctf5.
Open Scope R_scope.

Lemma cos_sum n (v : Z) : (0 < n)%nat -> rsum n (fun t => cos (2 * PI * INR t * IZR v / INR n)) = if (v mod Z.of_nat n =? 0)%Z then INR n else 0.
Proof.
  intros N. assert (N0 : INR n <> 0) by (apply not_0_INR; lia). pose proof (Z.mod_pos_bound v (Z.of_nat n) ltac:(lia)) as B. pose proof (Z.div_mod v (Z.of_nat n) ltac:(lia)) as D.
  pose proof (kernel_one n (v mod Z.of_nat n) N ltac:(lia)) as K. unfold kernel in K.
  assert (E : rsum n (fun t => cos (2 * PI * INR t * IZR v / INR n)) = rsum n (fun k => 1 * cos (2 * PI * INR k * IZR (v mod Z.of_nat n) / INR n))).
  { apply rsum_ext. intros t _. rewrite D at 1. rewrite plus_IZR, mult_IZR, <- INR_IZR_INZ.
    replace (2 * PI * INR t * (INR n * IZR (v / Z.of_nat n) + IZR (v mod Z.of_nat n)) / INR n) with (2 * PI * INR t * IZR (v mod Z.of_nat n) / INR n + 2 * PI * IZR (Z.of_nat t * (v / Z.of_nat n))).
    - rewrite period_Z_cos. ring.
    - rewrite mult_IZR, <- INR_IZR_INZ. field. exact N0. }
  rewrite E. destruct (v mod Z.of_nat n =? 0)%Z.
  - transitivity (INR n * (/ INR n * rsum n (fun k => 1 * cos (2 * PI * INR k * IZR (v mod Z.of_nat n) / INR n)))); [field; exact N0|]. rewrite K. ring.
  - transitivity (INR n * (/ INR n * rsum n (fun k => 1 * cos (2 * PI * INR k * IZR (v mod Z.of_nat n) / INR n)))); [field; exact N0|]. rewrite K. ring.
Qed.
Lemma sin_sum n (v : Z) : (0 < n)%nat -> rsum n (fun t => sin (2 * PI * INR t * IZR v / INR n)) = 0.
Proof.
  intros N. assert (N0 : INR n <> 0) by (apply not_0_INR; lia). destruct n as [|m]; [lia|]. rewrite rsum_shift. simpl (INR 0).
  replace (2 * PI * 0 * IZR v / INR (S m)) with 0 by (field; exact N0). rewrite sin_0.
  set (S := rsum m (fun i => sin (2 * PI * INR (Datatypes.S i) * IZR v / INR (Datatypes.S m)))).
  assert (E : S = - S); [|lra].
  unfold S at 1. rewrite rsum_rev. unfold S. rewrite <- (Rmult_1_l (rsum m _)) at 1. replace (- rsum m (fun i => sin (2 * PI * INR (Datatypes.S i) * IZR v / INR (Datatypes.S m)))) with (-1 * rsum m (fun i => sin (2 * PI * INR (Datatypes.S i) * IZR v / INR (Datatypes.S m)))) by ring.
  rewrite <- !rsum_scal. apply rsum_ext. intros i Hi.
  replace (Datatypes.S (m - 1 - i))%nat with (Datatypes.S m - Datatypes.S i)%nat by lia. rewrite minus_INR by lia.
  replace (2 * PI * (INR (Datatypes.S m) - INR (Datatypes.S i)) * IZR v / INR (Datatypes.S m)) with (- (2 * PI * INR (Datatypes.S i) * IZR v / INR (Datatypes.S m)) + 2 * PI * IZR v) by (field; exact N0).
  rewrite period_Z_sin, sin_neg. ring.
Qed.
Section Inversion.
Variable m : nat.
Variable X : nat -> C2.
Hypothesis Hm : (1 <= m)%nat.
Let n := (2 * m)%nat.
Let a j := if Nat.leb j m then fst (X j) else fst (X (n - j)%nat).
Let b j := if Nat.eqb j 0 || Nat.eqb j m then 0 else if Nat.leb j m then snd (X j) else - snd (X (n - j)%nat).
Let th (j t : nat) := 2 * PI * INR t * INR j / INR n.
Lemma n0 : INR n <> 0. Proof. apply not_0_INR. unfold n. lia. Qed.
Lemma th_comm j t : 2 * PI * INR (j * t) / INR n = th j t.
Proof. unfold th. rewrite mult_INR. f_equal. ring. Qed.
Lemma synth_full t : synth m X t = / INR n * rsum n (fun j => a j * cos (th j t) - b j * sin (th j t)).
Proof.
  pose proof n0 as N0. unfold synth. fold n. f_equal. unfold n at 3. rewrite fold_even; [|exact Hm|].
  - f_equal; [f_equal|].
    + unfold a, b, th. cbn [Nat.leb Nat.eqb orb INR]. rewrite Rmult_0_r. unfold Rdiv. rewrite Rmult_0_l, cos_0. ring.
    + unfold a, b. rewrite Nat.leb_refl, Nat.eqb_refl, Bool.orb_true_r. rewrite pow_m1_cos. unfold th. replace (2 * PI * INR t * INR m / INR n) with (PI * INR t); [ring|].
      unfold n in *. rewrite mult_INR in *. cbn [INR] in *. field. intros E. apply N0. rewrite E. ring.
    + apply rsum_ext. intros i Hi. rewrite !th_comm. unfold a, b. rewrite (proj2 (Nat.leb_le (S i) m)) by lia. rewrite (proj2 (Nat.eqb_neq (S i) m)) by lia. reflexivity.
  - intros k Hk. fold n. destruct (Nat.eq_dec k 0) as [->|K0].
    + rewrite Nat.sub_0_r. unfold a at 1. unfold b at 2. cbn [Nat.eqb orb]. rewrite (proj2 (Nat.leb_gt n m)) by (unfold n; lia). rewrite Nat.sub_diag.
      unfold a. cbn [Nat.leb]. assert (T0 : th 0 t = 0) by (unfold th; cbn [INR]; field; exact N0). assert (Tn : th n t = 0 + 2 * PI * IZR (Z.of_nat t)) by (unfold th; rewrite <- INR_IZR_INZ; field; exact N0).
      rewrite T0, Tn, period_Z_cos, period_Z_sin, sin_0. ring.
    + assert (T : th (n - k) t = - th k t + 2 * PI * IZR (Z.of_nat t)) by (unfold th; rewrite minus_INR by (unfold n; lia); rewrite <- INR_IZR_INZ; field; exact N0).
      rewrite T, period_Z_cos, period_Z_sin, cos_neg, sin_neg.
      assert (A : a (n - k) = a k). { unfold a. rewrite (proj2 (Nat.leb_gt (n - k) m)) by (unfold n; lia). rewrite (proj2 (Nat.leb_le k m)) by lia. do 2 f_equal. unfold n; lia. }
      assert (B : b (n - k) = - b k).
      { unfold b. rewrite (proj2 (Nat.eqb_neq (n - k) 0)) by (unfold n; lia). rewrite (proj2 (Nat.eqb_neq (n - k) m)) by (unfold n; lia). rewrite (proj2 (Nat.eqb_neq k 0)) by lia. rewrite (proj2 (Nat.eqb_neq k m)) by lia. cbn [orb].
        rewrite (proj2 (Nat.leb_gt (n - k) m)) by (unfold n; lia). rewrite (proj2 (Nat.leb_le k m)) by lia. do 3 f_equal. unfold n; lia. }
      rewrite A, B. ring.
Qed.
Lemma ind_minus j k : (j < n)%nat -> (k < n)%nat -> ((Z.of_nat k - Z.of_nat j) mod Z.of_nat n =? 0)%Z = Nat.eqb j k.
Proof.
  intros J K. destruct (Nat.eqb_spec j k) as [->|NE]; [rewrite Z.sub_diag; reflexivity|]. apply Z.eqb_neq. intros E. apply Z.mod_divide in E; [|lia]. destruct E as [q E]. assert (q = 0)%Z by nia. subst q. lia.
Qed.
Lemma ind_plus j k : (j < n)%nat -> (k < n)%nat -> ((Z.of_nat k + Z.of_nat j) mod Z.of_nat n =? 0)%Z = Nat.eqb j ((n - k) mod n).
Proof.
  intros J K. destruct (Nat.eq_dec k 0) as [->|K0].
  - rewrite Nat.sub_0_r, Nat.mod_same by lia. cbn [Z.of_nat Z.add]. rewrite Z.mod_small by lia. destruct (Nat.eqb_spec j 0), (Z.eqb_spec (Z.of_nat j) 0); auto; lia.
  - rewrite (Nat.mod_small (n - k)) by lia. destruct (Nat.eqb_spec j (n - k)) as [->|NE].
    + replace (Z.of_nat k + Z.of_nat (n - k))%Z with (Z.of_nat n) by lia. rewrite Z.mod_same by lia. reflexivity.
    + apply Z.eqb_neq. intros E. apply Z.mod_divide in E; [|lia]. destruct E as [q E]. assert (q = 1)%Z by nia. nia.
Qed.
Lemma coscos j k : (j < n)%nat -> (k < n)%nat -> rsum n (fun t => cos (th j t) * cos (th k t)) = INR n / 2 * ((if Nat.eqb j k then 1 else 0) + (if Nat.eqb j ((n - k) mod n) then 1 else 0)).
Proof.
  intros J K. pose proof n0 as N0. rewrite (rsum_ext n _ (fun t => / 2 * (cos (2 * PI * INR t * IZR (Z.of_nat k - Z.of_nat j) / INR n) + cos (2 * PI * INR t * IZR (Z.of_nat k + Z.of_nat j) / INR n)))).
  - rewrite rsum_scal, rsum_plus, !cos_sum by lia. rewrite ind_minus, ind_plus by assumption. destruct (Nat.eqb j k), (Nat.eqb j ((n - k) mod n)); field.
  - intros t _. rewrite minus_IZR, plus_IZR, <- !INR_IZR_INZ. replace (2 * PI * INR t * (INR k - INR j) / INR n) with (th k t - th j t) by (unfold th; field; exact N0).
    replace (2 * PI * INR t * (INR k + INR j) / INR n) with (th k t + th j t) by (unfold th; field; exact N0). rewrite cos_minus, cos_plus. field.
Qed.
Lemma sinsin j k : (j < n)%nat -> (k < n)%nat -> rsum n (fun t => sin (th j t) * sin (th k t)) = INR n / 2 * ((if Nat.eqb j k then 1 else 0) - (if Nat.eqb j ((n - k) mod n) then 1 else 0)).
Proof.
  intros J K. pose proof n0 as N0. rewrite (rsum_ext n _ (fun t => / 2 * (cos (2 * PI * INR t * IZR (Z.of_nat k - Z.of_nat j) / INR n) - cos (2 * PI * INR t * IZR (Z.of_nat k + Z.of_nat j) / INR n)))).
  - rewrite rsum_scal, rsum_minus, !cos_sum by lia. rewrite ind_minus, ind_plus by assumption. destruct (Nat.eqb j k), (Nat.eqb j ((n - k) mod n)); field.
  - intros t _. rewrite minus_IZR, plus_IZR, <- !INR_IZR_INZ. replace (2 * PI * INR t * (INR k - INR j) / INR n) with (th k t - th j t) by (unfold th; field; exact N0).
    replace (2 * PI * INR t * (INR k + INR j) / INR n) with (th k t + th j t) by (unfold th; field; exact N0). rewrite cos_minus, cos_plus. field.
Qed.
Lemma sincos j k : rsum n (fun t => sin (th j t) * cos (th k t)) = 0.
Proof.
  pose proof n0 as N0. rewrite (rsum_ext n _ (fun t => / 2 * (sin (2 * PI * INR t * IZR (Z.of_nat j - Z.of_nat k) / INR n) + sin (2 * PI * INR t * IZR (Z.of_nat j + Z.of_nat k) / INR n)))).
  - rewrite rsum_scal, rsum_plus, !sin_sum by (unfold n; lia). ring.
  - intros t _. rewrite minus_IZR, plus_IZR, <- !INR_IZR_INZ. replace (2 * PI * INR t * (INR j - INR k) / INR n) with (th j t - th k t) by (unfold th; field; exact N0).
    replace (2 * PI * INR t * (INR j + INR k) / INR n) with (th j t + th k t) by (unfold th; field; exact N0). rewrite sin_minus, sin_plus. field.
Qed.
Lemma dft_synth_sec x k : (k <= m)%nat -> (forall t, (t < n)%nat -> nth t x 0 = synth m X t) ->
  dft n x k = (fst (X k), if Nat.eqb k 0 || Nat.eqb k m then 0 else snd (X k)).
Proof.
  intros K E. pose proof n0 as N0. assert (Kn : (k < n)%nat) by (unfold n; lia).
  assert (G : forall g : nat -> R, rsum n (fun t => nth t x 0 * g t) = / INR n * rsum n (fun j => a j * rsum n (fun t => cos (th j t) * g t) - b j * rsum n (fun t => sin (th j t) * g t))).
  { intros g. rewrite (rsum_ext n _ (fun t => / INR n * rsum n (fun j => a j * (cos (th j t) * g t) - b j * (sin (th j t) * g t)))).
    - rewrite rsum_scal. f_equal. rewrite rsum_swap. apply rsum_ext. intros j _. rewrite rsum_minus, !rsum_scal. reflexivity.
    - intros t Ht. rewrite E, synth_full by exact Ht. rewrite Rmult_assoc, <- rsum_scal_r. f_equal. apply rsum_ext. intros j _. ring. }
  assert (KN : ((n - k) mod n < n)%nat) by (apply Nat.mod_upper_bound; lia).
  assert (PICK : forall (c : nat -> R) q, (q < n)%nat -> rsum n (fun j => c j * (if Nat.eqb j q then 1 else 0)) = c q).
  { intros c q Q. rewrite (rsum_single n q); [rewrite Nat.eqb_refl; ring|exact Q|]. intros j _ NE. rewrite (proj2 (Nat.eqb_neq j q)) by auto. ring. }
  assert (MOD : ((n - k) mod n = if Nat.eqb k 0 then 0 else n - k)%nat) by (destruct (Nat.eqb_spec k 0) as [->|]; [rewrite Nat.sub_0_r; apply Nat.mod_same; lia|apply Nat.mod_small; lia]).
  assert (AK : a k = fst (X k) /\ a ((n - k) mod n) = fst (X k)).
  { unfold a. rewrite (proj2 (Nat.leb_le k m)) by exact K. split; [reflexivity|]. rewrite MOD. destruct (Nat.eqb_spec k 0) as [->|K0]; [reflexivity|]. destruct (Nat.leb_spec (n - k) m).
    - do 2 f_equal. unfold n in *; lia.
    - do 2 f_equal. lia. }
  assert (BK : b k = (if Nat.eqb k 0 || Nat.eqb k m then 0 else snd (X k)) /\ b ((n - k) mod n) = - b k).
  { unfold b. rewrite (proj2 (Nat.leb_le k m)) by exact K. split; [reflexivity|]. rewrite MOD. destruct (Nat.eqb_spec k 0) as [->|K0]; [cbn [Nat.eqb orb]; ring|]. cbn [orb].
    rewrite (proj2 (Nat.eqb_neq (n - k) 0)) by lia. cbn [orb]. destruct (Nat.eqb_spec k m) as [->|KM].
    - replace (n - m)%nat with m by (unfold n; lia). rewrite Nat.eqb_refl. ring.
    - rewrite (proj2 (Nat.eqb_neq (n - k) m)) by (unfold n; lia). rewrite (proj2 (Nat.leb_gt (n - k) m)) by (unfold n; lia). do 3 f_equal. lia. }
  unfold dft. rewrite (rsum_ext n (fun j => nth j x 0 * cos (2 * PI * INR (j * k) / INR n)) (fun t => nth t x 0 * cos (th k t))) by (intros t _; rewrite Nat.mul_comm, th_comm; reflexivity).
  rewrite (rsum_ext n (fun j => nth j x 0 * sin (2 * PI * INR (j * k) / INR n)) (fun t => nth t x 0 * sin (th k t))) by (intros t _; rewrite Nat.mul_comm, th_comm; reflexivity).
  rewrite (G (fun t => cos (th k t))), (G (fun t => sin (th k t))). f_equal.
  - rewrite (rsum_ext n _ (fun j => INR n / 2 * (a j * (if Nat.eqb j k then 1 else 0) + a j * (if Nat.eqb j ((n - k) mod n) then 1 else 0)))).
    + rewrite rsum_scal, rsum_plus, !PICK by assumption. destruct AK as [-> ->]. field. exact N0.
    + intros j Hj. rewrite coscos, sincos by assumption. ring.
  - rewrite (rsum_ext n _ (fun j => - (INR n / 2) * (b j * (if Nat.eqb j k then 1 else 0) - b j * (if Nat.eqb j ((n - k) mod n) then 1 else 0)))).
    + rewrite rsum_scal, rsum_minus, !PICK by assumption. destruct BK as [BK ->]. rewrite <- BK. field. exact N0.
    + intros j Hj. rewrite sinsin by assumption. rewrite (rsum_ext n _ (fun t => sin (th k t) * cos (th j t))) by (intros; ring). rewrite sincos. ring.
Qed.
End Inversion.
Lemma dft_synth m X x k : (1 <= m)%nat -> (k <= m)%nat -> (forall t, (t < 2 * m)%nat -> nth t x 0 = synth m X t) ->
  dft (2 * m) x k = (fst (X k), if Nat.eqb k 0 || Nat.eqb k m then 0 else snd (X k)).
Proof. intros M K E. apply (dft_synth_sec m X M x k K E). Qed.
Lemma rfft_spectrum y : (0 < length y)%nat -> spectrum_of y (rfft_n y (length y)).
Proof.
  intros P. assert (H1 : (length y / 2 + 1 <= length y)%nat) by (pose proof (Nat.div_lt (length y) 2); lia). split.
  - unfold rfft_n, fft. rewrite firstn_length, map_length, seq_length. lia.
  - intros k Hk. unfold rfft_n. rewrite nth_firstn by lia. unfold fft. rewrite (nth_map_seq' _ (length y) k) by lia. reflexivity.
Qed.
Lemma even_half n : Nat.even n = true -> n = (2 * (n / 2))%nat.
Proof. intros E. apply Nat.even_spec in E. destruct E as [q ->]. rewrite Nat.mul_comm, Nat.div_mul by lia. lia. Qed.
Lemma irfft_spectrum x X : Nat.even (length x) = true -> (0 < length x)%nat -> spectrum_of x X -> irfft X = x.
Proof.
  intros EV P [L V]. pose proof (even_half _ EV) as EH. set (m := (length x / 2)%nat) in *. unfold C2 in *.
  assert (LI : length (irfft X) = length x) by (rewrite length_irfft; unfold C2; rewrite L; lia).
  apply (nth_ext _ _ 0 0); [exact LI|]. intros t Ht. rewrite nth_irfft by (unfold C2; rewrite L; lia). unfold C2; rewrite L. replace (m + 1 - 1)%nat with m by lia.
  rewrite (synth_ext m _ (dft (2 * m) x)); [apply synth_dft; lia|lia|]. intros k Hk. rewrite V by exact Hk. rewrite EH at 1. reflexivity.
Qed.
Lemma resample_even resampler x X y fs ft : Nat.even (length x) = true -> (0 < length x)%nat -> spectrum_of x X -> resampler fs ft x = Ok y -> (0 < length y)%nat ->
  exists Y, resample_spectrum resampler X fs ft = Ok Y /\ spectrum_of y Y.
Proof.
  intros EV P S R0 PY. unfold resample_spectrum. pose proof (even_half _ EV) as EH. pose proof S as [L _]. unfold C2 in *. rewrite (proj2 (Nat.leb_gt _ 1)) by lia. rewrite (irfft_spectrum x X EV P S), R0. cbn [bind].
  rewrite (proj2 (Nat.eqb_neq (length y) 0)) by lia. eexists. split; [reflexivity|]. apply rfft_spectrum. exact PY.
Qed.
Lemma resample_error resampler x X fs ft e : Nat.even (length x) = true -> (0 < length x)%nat -> spectrum_of x X -> resampler fs ft x = Err e -> resample_spectrum resampler X fs ft = Err e.
Proof.
  intros EV P S R0. unfold resample_spectrum. pose proof (even_half _ EV) as EH. pose proof S as [L _]. unfold C2 in *. rewrite (proj2 (Nat.leb_gt _ 1)) by lia. rewrite (irfft_spectrum x X EV P S), R0. reflexivity.
Qed.
Lemma resample_same resampler (X : list C2) fs : (2 <= length X)%nat -> (forall x, resampler fs fs x = Ok x) ->
  exists Y, resample_spectrum resampler X fs fs = Ok Y /\ length Y = length X /\ forall k, (k < length X)%nat -> nth k Y (0, 0) = real_ends X k.
Proof.
  intros L R0. unfold resample_spectrum. rewrite (proj2 (Nat.leb_gt _ 1)) by lia. rewrite R0. cbn [bind]. pose proof (length_irfft X) as LI. set (m := (length X - 1)%nat) in *. set (x := irfft X) in *.
  rewrite (proj2 (Nat.eqb_neq (length x) 0)) by lia. eexists. split; [reflexivity|]. destruct (rfft_spectrum x ltac:(lia)) as [LS V].
  assert (H2 : (length x / 2 = m)%nat) by (rewrite LI, Nat.mul_comm, Nat.div_mul; lia). rewrite H2 in LS, V. split; [rewrite LS; unfold m; lia|]. intros k Hk. rewrite V by (unfold m; lia). rewrite LI.
  rewrite (dft_synth m (fun k => nth k X (0, 0)) x k); [reflexivity|unfold m; lia|unfold m; lia|]. intros t Ht. apply nth_irfft. fold m. exact Ht.
Qed.
Lemma resample_short resampler (X : list C2) fs ft : (length X <= 1)%nat -> resample_spectrum resampler X fs ft = Err ValueError.
Proof. intros L. unfold resample_spectrum. rewrite (proj2 (Nat.leb_le _ 1)) by exact L. reflexivity. Qed.
