(** Transforms of hermitian spectra; the response of scipy's minimum_phase. *)
From Coq Require Import Lra Lia.
From Verif Require Import Base BaseFacts M_utils M_sig M_process M_sph M_parsa3 M_decoder4 M_minph S_process S_decoder3 S_magls S_minph P_utils P_sig P_magls4 P_magls5 P_ctf5 P_ctf6.
Open Scope R_scope.

Section Herm.
Variable m : nat.
Hypothesis Hm : (1 <= m)%nat.
Let n := (2 * m)%nat.
Lemma n0m : INR n <> 0. Proof. apply not_0_INR. unfold n. lia. Qed.
Lemma ang_mirror k t : (k <= n)%nat -> 2 * PI * INR ((n - k) * t) / INR n = - (2 * PI * INR (k * t) / INR n) + 2 * PI * IZR (Z.of_nat t).
Proof. intros K. rewrite !mult_INR, minus_INR by exact K. rewrite <- INR_IZR_INZ. field. exact n0m. Qed.
Lemma cos_mirror k t : (k <= n)%nat -> cos (2 * PI * INR ((n - k) * t) / INR n) = cos (2 * PI * INR (k * t) / INR n).
Proof. intros K. rewrite ang_mirror, period_Z_cos, cos_neg by exact K. reflexivity. Qed.
Lemma sin_mirror k t : (k <= n)%nat -> sin (2 * PI * INR ((n - k) * t) / INR n) = - sin (2 * PI * INR (k * t) / INR n).
Proof. intros K. rewrite ang_mirror, period_Z_sin, sin_neg by exact K. reflexivity. Qed.
(** the transform of a real signal is hermitian *)
Lemma dft_mirror x k : (k <= n)%nat -> dft n x (n - k) = cconj (dft n x k).
Proof.
  intros K. unfold dft, cconj. cbn [fst snd]. f_equal.
  - apply rsum_ext. intros j _. rewrite (Nat.mul_comm j (n - k)), (Nat.mul_comm j k), cos_mirror by exact K. reflexivity.
  - rewrite Ropp_involutive. replace (rsum n (fun j => nth j x 0 * sin (2 * PI * INR (j * k) / INR n))) with (- 1 * - rsum n (fun j => nth j x 0 * sin (2 * PI * INR (j * k) / INR n))) by ring.
    rewrite <- (Rmult_1_l (- rsum n (fun j => nth j x 0 * sin (2 * PI * INR (j * (n - k)) / INR n)))). 
    replace (1 * - rsum n (fun j => nth j x 0 * sin (2 * PI * INR (j * (n - k)) / INR n))) with (- 1 * rsum n (fun j => nth j x 0 * sin (2 * PI * INR (j * (n - k)) / INR n))) by ring.
    f_equal. replace (- rsum n (fun j => nth j x 0 * sin (2 * PI * INR (j * k) / INR n))) with (- 1 * rsum n (fun j => nth j x 0 * sin (2 * PI * INR (j * k) / INR n))) by ring. rewrite <- rsum_scal.
    apply rsum_ext. intros j _. rewrite (Nat.mul_comm j (n - k)), (Nat.mul_comm j k), sin_mirror by exact K. ring.
Qed.
Lemma dft_zero_im x : snd (dft n x 0) = 0.
Proof. unfold dft. cbn [snd]. rewrite rsum_0; [ring|]. intros j _. rewrite Nat.mul_0_r. cbn [INR]. rewrite Rmult_0_r. unfold Rdiv. rewrite Rmult_0_l, sin_0. ring. Qed.
Lemma dft_mid_im x : snd (dft n x m) = 0.
Proof.
  pose proof (dft_mirror x m ltac:(unfold n; lia)) as E. replace (n - m)%nat with m in E by (unfold n; lia). apply (f_equal snd) in E. unfold cconj in E. cbn [snd] in E. lra.
Qed.
(** spectra given on all bins *)
Definition hermitian (Y : nat -> C2) : Prop := (forall k, (k <= m)%nat -> Y (n - k)%nat = cconj (Y k)) /\ snd (Y 0%nat) = 0.
Lemma herm_mid Y : hermitian Y -> snd (Y m) = 0.
Proof. intros [H _]. specialize (H m ltac:(lia)). replace (n - m)%nat with m in H by (unfold n; lia). apply (f_equal snd) in H. unfold cconj in H. cbn [snd] in H. lra. Qed.
Lemma full_synth Y t : hermitian Y ->
  / INR n * rsum n (fun k => fst (Y k) * cos (2 * PI * INR (k * t) / INR n) - snd (Y k) * sin (2 * PI * INR (k * t) / INR n)) = synth m Y t.
Proof.
  intros HY. pose proof (herm_mid Y HY) as HM. destruct HY as [H H0]. unfold synth. fold n. f_equal. unfold n at 1. rewrite fold_even; [|exact Hm|].
  - f_equal. f_equal.
    + rewrite H0. cbn [Nat.mul INR]. rewrite Rmult_0_r. unfold Rdiv. rewrite Rmult_0_l, cos_0. ring.
    + rewrite HM, pow_m1_cos. replace (2 * PI * INR (m * t) / INR n) with (PI * INR t); [ring|]. rewrite mult_INR. unfold n. rewrite mult_INR. simpl (INR 2). field. apply not_0_INR. lia.
  - intros k K. fold n. rewrite H by lia. unfold cconj. cbn [fst snd]. rewrite cos_mirror, sin_mirror by (unfold n; lia). ring.
Qed.
(** the transform of the real signal with the hermitian spectrum [Y] is [Y] *)
Lemma dft_back Y x k : hermitian Y -> (k < n)%nat ->
  (forall t, (t < n)%nat -> nth t x 0 = / INR n * rsum n (fun k => fst (Y k) * cos (2 * PI * INR (k * t) / INR n) - snd (Y k) * sin (2 * PI * INR (k * t) / INR n))) ->
  dft n x k = Y k.
Proof.
  intros HY K E. assert (L : forall j, (j <= m)%nat -> dft n x j = Y j).
  { intros j J. unfold n. rewrite (dft_synth m Y x j Hm J).
    - rewrite (surjective_pairing (Y j)) at 3. f_equal. destruct (Nat.eqb_spec j 0) as [->|]; [symmetry; apply HY|]. destruct (Nat.eqb_spec j m) as [->|]; [symmetry; apply herm_mid, HY|reflexivity].
    - intros t T. rewrite E by exact T. apply full_synth, HY. }
  destruct (Nat.le_gt_cases k m) as [C|C]; [apply L, C|]. replace k with (n - (n - k))%nat by lia. rewrite dft_mirror by lia. destruct HY as [H _]. rewrite H by (unfold n in *; lia). f_equal. apply L. unfold n in *; lia.
Qed.
Lemma herm_dft x : hermitian (dft n x).
Proof. split; [intros k K; apply dft_mirror; unfold n; lia|apply dft_zero_im]. Qed.
Lemma herm_exp Y : hermitian Y -> hermitian (fun k => cexp (Y k)).
Proof. intros [H H0]. split; [intros k K; rewrite H by exact K; unfold cexp, cconj; cbn [fst snd]; rewrite cos_neg, sin_neg; f_equal; ring|unfold cexp; cbn [snd]; rewrite H0, sin_0; ring]. Qed.
Lemma herm_real (g : nat -> R) : (forall k, (k <= m)%nat -> g (n - k)%nat = g k) -> hermitian (fun k => (g k, 0)).
Proof. intros H. split; [intros k K; rewrite H by exact K; unfold cconj; cbn [fst snd]; f_equal; ring|reflexivity]. Qed.
Lemma modulus_conj z : modulus (cconj z) = modulus z.
Proof. unfold modulus, cconj. cbn [fst snd]. f_equal. ring. Qed.
Lemma modulus_exp z : modulus (cexp z) = exp (fst z).
Proof.
  unfold modulus, cexp. cbn [fst snd]. replace ((exp (fst z) * cos (snd z)) ^ 2 + (exp (fst z) * sin (snd z)) ^ 2) with (exp (fst z) * exp (fst z) * (Rsqr (sin (snd z)) + Rsqr (cos (snd z)))) by (unfold Rsqr; ring).
  rewrite sin2_cos2, Rmult_1_r. apply sqrt_square. left. apply exp_pos.
Qed.
End Herm.

(** ** the pieces of the model *)
Lemma size_ok len : (2 <= len)%nat -> transform_size len (minph_nfft len).
Proof.
  intros L. unfold transform_size, minph_nfft. split; [eexists; reflexivity|]. destruct (Nat.log2_up_spec (200 * (len - 1)) ltac:(lia)) as [A B].
  split; [exact B|]. pose proof (Nat.log2_up_pos (200 * (len - 1)) ltac:(lia)) as P. destruct (Nat.log2_up (200 * (len - 1))) as [|p]; [lia|]. cbn [Nat.pred] in A. rewrite Nat.pow_succ_r'. lia.
Qed.
Lemma size_even len n : (2 <= len)%nat -> transform_size len n -> exists m, (1 <= m)%nat /\ n = (2 * m)%nat.
Proof. intros L [[p ->] B]. destruct p as [|p]; [simpl in B; lia|]. exists (2 ^ p)%nat. rewrite Nat.pow_succ_r'. split; [pose proof (Nat.pow_nonzero 2 p); lia|reflexivity]. Qed.
Lemma size_unique len n n' : (2 <= len)%nat -> transform_size len n -> transform_size len n' -> n = n'.
Proof.
  intros L [[p ->] B] [[q ->] B']. f_equal. destruct (Nat.lt_trichotomy p q) as [C|[C|C]]; [|exact C|].
  - pose proof (Nat.pow_le_mono_r 2 (S p) q ltac:(lia) C) as H. rewrite Nat.pow_succ_r' in H. lia.
  - pose proof (Nat.pow_le_mono_r 2 (S q) p ltac:(lia) C) as H. rewrite Nat.pow_succ_r' in H. lia.
Qed.
Lemma fft_at x n k : (k < n)%nat -> nth k (fft x n) (0, 0) = dft n x k.
Proof. intros K. unfold fft. rewrite (nth_map_seq _ n k) by exact K. reflexivity. Qed.
Lemma length_fft x n : length (fft x n) = n.
Proof. unfold fft. rewrite map_length, seq_length. reflexivity. Qed.
Lemma mag_at h n k : (k < n)%nat -> nth k (map cabs (fft h n)) 0 = modulus (dft n h k).
Proof. intros K. rewrite (nth_map_in cabs (fft h n) k 0 (0, 0)) by (rewrite length_fft; exact K). rewrite fft_at by exact K. reflexivity. Qed.
Lemma length_mag h n : length (map cabs (fft h n)) = n.
Proof. rewrite map_length. apply length_fft. Qed.
Lemma fold_min_le t : forall x, fold_left Rmin t x <= x /\ (forall y, In y t -> fold_left Rmin t x <= y) /\ (fold_left Rmin t x = x \/ In (fold_left Rmin t x) t).
Proof.
  induction t as [|a t IH]; intros x; cbn [fold_left]; [split; [lra|split; [intros y []|auto]]|]. destruct (IH (Rmin x a)) as (A & B & C). pose proof (Rmin_l x a). pose proof (Rmin_r x a).
  split; [lra|split].
  - intros y [<-|Y]; [lra|auto].
  - destruct C as [C|C]; [|right; right; exact C]. rewrite C. unfold Rmin. destruct (Rle_dec x a); [auto|right; left; reflexivity].
Qed.
Lemma np_min_ok l m : np_min l = Ok m <-> In m l /\ forall y, In y l -> m <= y.
Proof.
  destruct l as [|x t]; cbn [np_min].
  - split; [discriminate|]. intros [[] _].
  - destruct (fold_min_le t x) as (A & B & C). split.
    + intros E. injection E as <-. split; [destruct C as [->|C]; [left; reflexivity|right; exact C]|]. intros y [<-|Y]; [exact A|auto].
    + intros [I L]. f_equal. apply Rle_antisym; [|apply L; destruct C as [->|C]; [left; reflexivity|right; exact C]]. destruct I as [<-|I]; [exact A|auto].
Qed.
Lemma least_ok h n m : np_min (filter (Rltb 0) (map cabs (fft h n))) = Ok m <-> least_gain n h m.
Proof.
  rewrite np_min_ok. assert (F : forall y, In y (filter (Rltb 0) (map cabs (fft h n))) <-> 0 < y /\ exists k, (k < n)%nat /\ modulus (dft n h k) = y).
  { intros y. rewrite filter_In. split.
    - intros [I P]. apply Rltb_true in P. split; [exact P|]. apply (In_nth _ _ 0) in I. destruct I as (k & K & E). rewrite length_mag in K. rewrite mag_at in E by exact K. eauto.
    - intros (P & k & K & <-). split; [|apply Rltb_true; exact P]. rewrite <- mag_at by exact K. apply nth_In. rewrite length_mag. exact K. }
  split.
  - intros [I L]. apply F in I. destruct I as [P E]. split; [exact P|split; [exact E|]]. intros k K Pk. apply L, F. eauto.
  - intros (P & E & L). split; [apply F; auto|]. intros y Y. apply F in Y. destruct Y as (Py & k & K & <-). auto.
Qed.
Lemma least_unique n h m m' : least_gain n h m -> least_gain n h m' -> m = m'.
Proof. intros (P & (k & K & E) & L) (P' & (k' & K' & E') & L'). apply Rle_antisym; [rewrite <- E'; apply L; [exact K'|lra]|rewrite <- E; apply L'; [exact K|lra]]. Qed.
