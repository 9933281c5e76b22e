(** firwin2: linearity, energy, consequences for the post equalizers. *)
From Verif Require Import Base BaseFacts M_utils M_sig M_process M_sph M_parsa3 M_decoder4 M_firwin S_process S_parsa2 S_parsa3 S_firwin
  P_parsa13 P_parsa14 P_parsa19 P_magls1 P_magls4 P_ctf6 P_firwin P_proc2 P_fbank.
Require Import Lra Lia.
Open Scope R_scope.

(** * Symmetry, linearity *)
Lemma hamming_sym nt t : (t < nt)%nat -> hamming_at nt (nt - 1 - t) = hamming_at nt t.
Proof.
  intros T. unfold hamming_at. destruct (Nat.eqb_spec nt 1) as [|N]; [reflexivity|]. rewrite minus_INR by lia.
  assert (INR (nt - 1) <> 0) by (apply not_0_INR; lia).
  replace (2 * PI * (INR (nt - 1) - INR t) / INR (nt - 1)) with (- (2 * PI * INR t / INR (nt - 1)) + 2 * PI * IZR 1) by (cbn [IZR IPR]; field; assumption).
  rewrite period_Z_cos, cos_neg. reflexivity.
Qed.
Lemma hamming_mid c : hamming_at (2 * c + 1) c = 1.
Proof.
  unfold hamming_at. destruct (Nat.eqb_spec (2 * c + 1) 1) as [|N]; [reflexivity|]. replace (2 * c + 1 - 1)%nat with (2 * c)%nat by lia.
  rewrite mult_INR. assert (INR c <> 0) by (apply not_0_INR; lia).
  replace (2 * PI * INR c / (INR 2 * INR c)) with PI by (simpl (INR 2); field; assumption). rewrite cos_PI. field.
Qed.
Lemma hamming_range nt t : 0 <= hamming_at nt t <= 1.
Proof. unfold hamming_at. destruct (Nat.eqb nt 1); [lra|]. pose proof (COS_bound (2 * PI * INR t / INR (nt - 1))). lra. Qed.
Lemma odd_mid nt : Nat.odd nt = true -> exists c, nt = (2 * c + 1)%nat /\ ((nt - 1) / 2 = c)%nat.
Proof.
  intros O. apply Nat.odd_spec in O. destruct O as [c C]. exists c. split; [exact C|]. rewrite C. replace (2 * c + 1 - 1)%nat with (c * 2)%nat by lia. apply Nat.div_mul. lia.
Qed.
Lemma design_sym nt n g t : Nat.odd nt = true -> (t < nt)%nat -> design_at nt n g (nt - 1 - t) = design_at nt n g t.
Proof.
  intros O T. destruct (odd_mid nt O) as (c & C & Ec). unfold design_at. cbv zeta. rewrite hamming_sym by exact T. f_equal. rewrite Ec.
  replace (Z.of_nat (nt - 1 - t) - Z.of_nat c)%Z with (- (Z.of_nat t - Z.of_nat c))%Z by lia. apply kernel_even.
Qed.
Lemma design_sum nt n g t : length g = n -> design_at nt n g t = rsum n (fun j => nth j g 0 * design_at nt n (unit_list n j) t).
Proof.
  intros L. unfold design_at. cbv zeta. set (M := (2 ^ Nat.log2_up nt)%nat). set (v := (Z.of_nat t - _)%Z).
  rewrite (kernel_ext _ _ (fun k => rsum n (fun j => nth j g 0 * mirrored M (fun x => np_interp x (unit_grid n) (unit_list n j)) k))).
  - rewrite (kernel_sum _ n (fun j => nth j g 0) (fun j => mirrored M (fun x => np_interp x (unit_grid n) (unit_list n j)))).
    rewrite <- rsum_scal. apply rsum_ext. intros j J. ring.
  - intros k K. unfold mirrored. apply interp_linear. exact L.
Qed.
Lemma line_value (g : list R) M k : (2 <= length g)%nat -> (1 <= M)%nat -> (k <= 2 * M)%nat -> exists j s, (j + 1 < length g)%nat /\ 0 <= s <= 1 /\
  forall g' : list R, length g' = length g -> mirrored M (fun x => np_interp x (unit_grid (length g)) g') k = (1 - s) * nth j g' 0 + s * nth (j + 1) g' 0.
Proof.
  intros N HM K. assert (0 < INR M) by (apply lt_0_INR; lia).
  destruct (on_piece (length g) (INR (Nat.min k (2 * M - k)) / INR M) N) as (j & s & J & S & E).
  - split; [apply Rmult_le_pos; [apply pos_INR|left; apply Rinv_0_lt_compat; assumption]|].
    apply (Rmult_le_reg_r (INR M)); [assumption|]. unfold Rdiv. rewrite Rmult_assoc, Rinv_l, Rmult_1_l, Rmult_1_r by lra. apply le_INR. lia.
  - exists j, s. split; [exact J|]. split; [exact S|]. intros g' L. unfold mirrored. rewrite E.
    pose proof (interp_line g' ltac:(lia) j s ltac:(lia) S) as Q. cbv beta in Q. rewrite L in Q. exact Q.
Qed.
Lemma design_ones nt n t : Nat.odd nt = true -> (2 <= n)%nat -> (t < nt)%nat ->
  design_at nt n (repeat 1 n) t = if (t =? (nt - 1) / 2)%nat then 1 else 0.
Proof.
  intros O N T. destruct (odd_mid nt O) as (c & C & Ec). unfold design_at. cbv zeta. rewrite Ec.
  destruct (log2_next nt ltac:(lia)) as (e & _ & HM & _). set (M := (2 ^ Nat.log2_up nt)%nat) in *.
  rewrite (kernel_ext _ _ (fun _ => 1)).
  - rewrite kernel_one by lia. destruct (Z.eqb_spec (Z.of_nat t - Z.of_nat c) 0) as [E|E]; destruct (Nat.eqb_spec t c) as [E'|E']; try lia; [|ring].
    subst t. rewrite C, hamming_mid. ring.
  - intros k K. destruct (line_value (repeat 1 n) M k ltac:(rewrite repeat_length; exact N) ltac:(lia) ltac:(lia)) as (j & s & J & S & V).
    rewrite repeat_length in J, V. rewrite V by (apply repeat_length). rewrite !nth_repeat_in by lia. ring.
Qed.
Theorem firwin2_linear : linear_design firwin2.
Proof.
  exists (fun nt n j t => design_at nt n (unit_list n j) t). intros nt g O N. split.
  - rewrite firwin2_value by assumption. f_equal. apply map_ext_in. intros t T. apply design_sum. reflexivity.
  - intros t T. rewrite <- (design_ones nt (length g) t O N T). rewrite design_sum by (apply repeat_length). apply rsum_ext. intros j J.
    rewrite nth_repeat_in by exact J. ring.
Qed.
Lemma firwin2_total nt g : Nat.odd nt = true -> (2 <= length g)%nat -> exists h, firwin2 nt g = Ok h /\ length h = nt.
Proof. apply design_total. apply firwin2_linear. Qed.

(** * Energy *)
Lemma cos_sum_shift n m c : (0 < n)%nat ->
  rsum n (fun t => cos (2 * PI * IZR m * IZR (Z.of_nat t - c) / INR n)) = if (m mod Z.of_nat n =? 0)%Z then INR n else 0.
Proof.
  intros N. assert (N0 : INR n <> 0) by (apply not_0_INR; lia). set (a := 2 * PI * IZR m * IZR c / INR n).
  transitivity (cos a * rsum n (fun t => cos (2 * PI * INR t * IZR m / INR n)) + sin a * rsum n (fun t => sin (2 * PI * INR t * IZR m / INR n))).
  - rewrite <- !rsum_scal, <- rsum_plus. apply rsum_ext. intros t _. rewrite minus_IZR, <- INR_IZR_INZ.
    replace (2 * PI * IZR m * (INR t - IZR c) / INR n) with (2 * PI * INR t * IZR m / INR n - a) by (unfold a; field; exact N0). rewrite cos_minus. ring.
  - rewrite cos_sum, sin_sum by exact N. destruct (Z.eqb_spec (m mod Z.of_nat n) 0) as [E|E]; [|ring].
    assert (cos a = 1) as ->; [|ring]. apply Z.mod_divide in E; [|lia]. destruct E as [q Q]. unfold a. rewrite Q, mult_IZR, <- INR_IZR_INZ.
    replace (2 * PI * (IZR q * INR n) * IZR c / INR n) with (0 + 2 * PI * IZR (q * c)) by (rewrite mult_IZR; field; exact N0). rewrite period_Z_cos. apply cos_0.
Qed.
Lemma kernel_energy n F c : (0 < n)%nat -> (forall k, (1 <= k < n)%nat -> F (n - k)%nat = F k) ->
  rsum n (fun t => Rsqr (kernel n F (Z.of_nat t - c))) = / INR n * rsum n (fun k => Rsqr (F k)).
Proof.
  intros N HF. assert (N0 : INR n <> 0) by (apply not_0_INR; lia).
  pose (w := fun k t => cos (2 * PI * INR k * IZR (Z.of_nat t - c) / INR n)).
  transitivity (rsum n (fun t => rsum n (fun k => rsum n (fun l => / INR n * / INR n * (F k * F l) * (w k t * w l t))))).
  - apply rsum_ext. intros t _. unfold kernel, Rsqr. fold (w).
    transitivity (/ INR n * / INR n * (rsum n (fun k => F k * w k t) * rsum n (fun l => F l * w l t))); [unfold w; ring|].
    rewrite <- rsum_scal_r, <- rsum_scal. apply rsum_ext. intros k _. rewrite <- !rsum_scal. apply rsum_ext. intros l _. ring.
  - rewrite rsum_swap, <- rsum_scal. apply rsum_ext. intros k K. rewrite rsum_swap.
    transitivity (rsum n (fun l => / INR n * / INR n * (F k * F l) * (/ 2 * (if (Z.of_nat k - Z.of_nat l =? 0)%Z then INR n else 0) + / 2 * (if ((Z.of_nat k + Z.of_nat l) mod Z.of_nat n =? 0)%Z then INR n else 0)))).
    { apply rsum_ext. intros l L. rewrite rsum_scal. f_equal.
      transitivity (/ 2 * rsum n (fun t => cos (2 * PI * IZR (Z.of_nat k - Z.of_nat l) * IZR (Z.of_nat t - c) / INR n)) + / 2 * rsum n (fun t => cos (2 * PI * IZR (Z.of_nat k + Z.of_nat l) * IZR (Z.of_nat t - c) / INR n))).
      - rewrite <- !rsum_scal, <- rsum_plus. apply rsum_ext. intros t _. unfold w. set (u := IZR (Z.of_nat t - c)). rewrite minus_IZR, plus_IZR, <- !INR_IZR_INZ.
        replace (2 * PI * (INR k - INR l) * u / INR n) with (2 * PI * INR k * u / INR n - 2 * PI * INR l * u / INR n) by (field; exact N0).
        replace (2 * PI * (INR k + INR l) * u / INR n) with (2 * PI * INR k * u / INR n + 2 * PI * INR l * u / INR n) by (field; exact N0).
        rewrite cos_minus, cos_plus. field.
      - rewrite !cos_sum_shift by exact N. f_equal. f_equal.
        destruct (Z.eqb_spec ((Z.of_nat k - Z.of_nat l) mod Z.of_nat n) 0) as [E|E]; destruct (Z.eqb_spec (Z.of_nat k - Z.of_nat l) 0) as [E'|E']; try reflexivity.
        + exfalso. apply Z.mod_divide in E; [|lia]. destruct E as [q Q]. assert (q = 0 \/ q <= -1 \/ 1 <= q)%Z as [->|[C|C]] by lia; [lia|nia|nia].
        + exfalso. apply E. rewrite E'. apply Z.mod_0_l. lia. }
    transitivity (rsum n (fun l => / INR n * (F k * F l) * / 2 * (if (k =? l)%nat then 1 else 0)) + rsum n (fun l => / INR n * (F k * F l) * / 2 * (if (l =? (if (k =? 0)%nat then 0 else n - k))%nat then 1 else 0))).
    { rewrite <- rsum_plus. apply rsum_ext. intros l L.
      replace (Z.of_nat k - Z.of_nat l =? 0)%Z with (k =? l)%nat by (destruct (Nat.eqb_spec k l); destruct (Z.eqb_spec (Z.of_nat k - Z.of_nat l) 0); lia || reflexivity).
      replace ((Z.of_nat k + Z.of_nat l) mod Z.of_nat n =? 0)%Z with (l =? (if (k =? 0)%nat then 0 else n - k))%nat.
      - destruct (k =? l)%nat; destruct (l =? _)%nat; field; exact N0.
      - destruct (Nat.eqb_spec l (if (k =? 0)%nat then 0 else n - k)) as [E|E]; symmetry.
        + apply Z.eqb_eq. destruct (Nat.eqb_spec k 0) as [K0|K0]; subst; [apply Z.mod_0_l; lia|]. replace (Z.of_nat k + Z.of_nat (n - k))%Z with (Z.of_nat n) by lia. apply Z.mod_same. lia.
        + apply Z.eqb_neq. intros Q. apply Z.mod_divide in Q; [|lia]. destruct Q as [q Q]. destruct (Nat.eqb_spec k 0) as [K0|K0]; assert (q <= 0 \/ q = 1 \/ 2 <= q)%Z as [C|[C|C]] by lia; try subst q; try nia. }
    rewrite (rsum_single _ k); [|exact K|].
    2:{ intros l _ NE. rewrite (proj2 (Nat.eqb_neq k l)) by auto. ring. }
    rewrite (rsum_single _ (if (k =? 0)%nat then 0%nat else (n - k)%nat)).
    + rewrite !Nat.eqb_refl. assert (F (if (k =? 0)%nat then 0%nat else (n - k)%nat) = F k) as ->.
      { destruct (Nat.eqb_spec k 0) as [->|K0]; [reflexivity|]. apply HF. lia. }
      unfold Rsqr. field. exact N0.
    + destruct (Nat.eqb_spec k 0); lia.
    + intros l _ NE. rewrite (proj2 (Nat.eqb_neq _ _) NE). ring.
Qed.
Lemma design_energy nt n g h : Nat.odd nt = true -> (2 <= n)%nat -> length g = n -> firwin2 nt g = Ok h ->
  let M := (2 ^ Nat.log2_up nt)%nat in
  energy h <= / INR (2 * M) * rsum (2 * M) (fun k => Rsqr (mirrored M (fun x => np_interp x (unit_grid n) g) k)).
Proof.
  intros O N L E M. rewrite firwin2_value in E by (congruence || lia). injection E as <-.
  destruct (odd_mid nt O) as (c & C & Ec). destruct (log2_next nt ltac:(lia)) as (e & _ & HM & _). fold M in HM.
  rewrite <- (kernel_energy (2 * M) _ (Z.of_nat c)).
  - unfold energy. rewrite map_length, seq_length. replace (2 * M)%nat with (nt + (2 * M - nt))%nat at 1 by lia. rewrite rsum_app.
    match goal with |- _ <= ?a + ?b => assert (0 <= b) by (apply rsum_nonneg; intros; apply Rle_0_sqr); apply Rle_trans with a; [|lra] end.
    apply rsum_le. intros t T. rewrite nth_map_seq by exact T. unfold design_at. cbv zeta. fold M. rewrite Ec, L, Rsqr_mult.
    rewrite <- (Rmult_1_l (Rsqr (kernel (2 * M) _ _))) at 2. apply Rmult_le_compat_r; [apply Rle_0_sqr|].
    pose proof (hamming_range nt t). unfold Rsqr. nra.
  - lia.
  - intros k K. unfold mirrored. do 2 f_equal. f_equal. lia.
Qed.
Lemma mix_power nb (a c : nat -> R) s : rsum nb (fun b => Rsqr (a b)) = 1 -> rsum nb (fun b => Rsqr (c b)) = 1 ->
  rsum nb (fun b => Rsqr ((1 - s) * a b + s * c b)) = 1 - s * (1 - s) * rsum nb (fun b => Rsqr (a b - c b)).
Proof.
  intros A C.
  assert (X : rsum nb (fun b => Rsqr (a b - c b)) = 2 - 2 * rsum nb (fun b => a b * c b)).
  { transitivity (rsum nb (fun b => Rsqr (a b)) + rsum nb (fun b => Rsqr (c b)) - 2 * rsum nb (fun b => a b * c b)); [|rewrite A, C; ring].
    rewrite <- rsum_scal, <- rsum_plus, <- rsum_minus. apply rsum_ext. intros b _. unfold Rsqr. ring. }
  transitivity ((1 - s) * (1 - s) * rsum nb (fun b => Rsqr (a b)) + s * s * rsum nb (fun b => Rsqr (c b)) + 2 * s * (1 - s) * rsum nb (fun b => a b * c b)).
  - rewrite <- !rsum_scal, <- !rsum_plus. apply rsum_ext. intros b _. unfold Rsqr. ring.
  - rewrite A, C, X. ring.
Qed.
Section Loss.
Variables (nb nt n : nat) (gs : nat -> list R) (irs : nat -> list R).
Hypotheses (O : Nat.odd nt = true) (N : (2 <= n)%nat) (Lg : forall b, (b < nb)%nat -> length (gs b) = n)
  (Hi : forall b, (b < nb)%nat -> firwin2 nt (gs b) = Ok (irs b))
  (HS : forall j, (j < n)%nat -> rsum nb (fun b => Rsqr (nth j (gs b) 0)) = 1).
Let M := (2 ^ Nat.log2_up nt)%nat.
Let F b k := mirrored M (fun x => np_interp x (unit_grid n) (gs b)) k.
Lemma M_pos : (nt <= M)%nat /\ (1 <= nt)%nat.
Proof. destruct (odd_mid nt O) as (c & C & _). destruct (log2_next nt ltac:(lia)) as (e & _ & HM & _). fold M in HM. lia. Qed.
Lemma mesh_power k : (k <= 2 * M)%nat -> rsum nb (fun b => Rsqr (F b k)) <= 1.
Proof.
  intros K. destruct M_pos. destruct (line_value (repeat 1 n) M k ltac:(rewrite repeat_length; exact N) ltac:(lia) K) as (j & s & J & S & V).
  rewrite repeat_length in J, V.
  apply Rle_trans with (rsum nb (fun b => Rsqr ((1 - s) * nth j (gs b) 0 + s * nth (j + 1) (gs b) 0))).
  - apply Req_le. apply rsum_ext. intros b B. unfold F. rewrite V by (rewrite Lg by exact B; reflexivity). reflexivity.
  - rewrite mix_power by (apply HS; lia). assert (0 <= rsum nb (fun b => Rsqr (nth j (gs b) 0 - nth (j + 1) (gs b) 0))) by (apply rsum_nonneg; intros; apply Rle_0_sqr).
    assert (0 <= s * (1 - s)) by (apply Rmult_le_pos; lra). nra.
Qed.
Lemma total_energy : rsum nb (fun b => energy (irs b)) <= / INR (2 * M) * rsum (2 * M) (fun k => rsum nb (fun b => Rsqr (F b k))).
Proof.
  rewrite rsum_swap, <- rsum_scal. apply rsum_le. intros b B. apply design_energy; auto.
Qed.
Lemma power_le : rsum nb (fun b => energy (irs b)) <= 1.
Proof.
  destruct M_pos as [MP NP]. assert (0 < INR (2 * M)) by (apply lt_0_INR; lia).
  eapply Rle_trans; [apply total_energy|]. apply Rle_trans with (/ INR (2 * M) * rsum (2 * M) (fun _ => 1)).
  - apply Rmult_le_compat_l; [left; apply Rinv_0_lt_compat; assumption|]. apply rsum_le. intros k K. apply mesh_power. lia.
  - rewrite rsum_const. apply Req_le. field. lra.
Qed.
Lemma power_lt j b0 : (n - 1 < M)%nat -> (j + 1 < n)%nat -> (b0 < nb)%nat -> nth j (gs b0) 0 <> nth (j + 1) (gs b0) 0 ->
  rsum nb (fun b => energy (irs b)) < 1.
Proof.
  intros NM J B0 NE. destruct M_pos as [MP NP]. assert (PM : 0 < INR (2 * M)) by (apply lt_0_INR; lia).
  assert (PM' : 0 < INR M) by (apply lt_0_INR; lia). assert (Pn : 0 < INR (n - 1)) by (apply lt_0_INR; lia).
  set (k0 := (j * M / (n - 1) + 1)%nat).
  assert (K1 : (j * M < k0 * (n - 1))%nat) by (unfold k0; pose proof (Nat.mul_succ_div_gt (j * M) (n - 1) ltac:(lia)); nia).
  assert (K2 : (k0 * (n - 1) < (j + 1) * M)%nat) by (unfold k0; pose proof (Nat.mul_div_le (j * M) (n - 1) ltac:(lia)); nia).
  assert (K3 : (k0 < M)%nat) by nia.
  set (s := INR (k0 * (n - 1)) / INR M - INR j).
  assert (S : 0 < s < 1).
  { apply lt_INR in K1, K2. rewrite (mult_INR j M) in K1. rewrite (mult_INR (j + 1) M), plus_INR in K2. simpl (INR 1) in K2. unfold s. split.
    - apply (Rmult_lt_reg_r (INR M)); [exact PM'|]. unfold Rdiv. rewrite Rmult_minus_distr_r, Rmult_assoc, Rinv_l by lra. lra.
    - apply (Rmult_lt_reg_r (INR M)); [exact PM'|]. unfold Rdiv. rewrite Rmult_minus_distr_r, Rmult_assoc, Rinv_l by lra. lra. }
  assert (T : rsum nb (fun b => Rsqr (F b k0)) < 1).
  { apply Rle_lt_trans with (rsum nb (fun b => Rsqr ((1 - s) * nth j (gs b) 0 + s * nth (j + 1) (gs b) 0))).
    - apply Req_le. apply rsum_ext. intros b B. f_equal. unfold F, mirrored. replace (Nat.min k0 (2 * M - k0)) with k0 by lia.
      pose proof (interp_line (gs b) ltac:(rewrite Lg by exact B; exact N) j s ltac:(rewrite Lg by exact B; exact J) ltac:(lra)) as Q. cbv beta in Q.
      rewrite Lg in Q by exact B. rewrite <- Q. f_equal. unfold s. rewrite mult_INR. field. split; lra.
    - rewrite mix_power by (apply HS; lia).
      assert (0 < rsum nb (fun b => Rsqr (nth j (gs b) 0 - nth (j + 1) (gs b) 0))).
      { apply Rlt_le_trans with (Rsqr (nth j (gs b0) 0 - nth (j + 1) (gs b0) 0)); [apply Rsqr_pos_lt; lra|].
        apply (rsum_ge_term nb (fun b => Rsqr (nth j (gs b) 0 - nth (j + 1) (gs b) 0)) b0); [intros; apply Rle_0_sqr|exact B0]. }
      assert (0 < s * (1 - s)) by (apply Rmult_lt_0_compat; lra). nra. }
  eapply Rle_lt_trans; [apply total_energy|]. apply Rlt_le_trans with (/ INR (2 * M) * rsum (2 * M) (fun _ => 1)).
  - apply Rmult_lt_compat_l; [apply Rinv_0_lt_compat; exact PM|].
    assert (X : 0 < rsum (2 * M) (fun k => 1 - rsum nb (fun b => Rsqr (F b k)))).
    { apply Rlt_le_trans with (1 - rsum nb (fun b => Rsqr (F b k0))); [lra|].
      apply (rsum_ge_term (2 * M) (fun k => 1 - rsum nb (fun b => Rsqr (F b k))) k0); [|lia]. intros k K. pose proof (mesh_power k ltac:(lia)). lra. }
    rewrite rsum_minus in X. lra.
  - rewrite rsum_const. apply Req_le. field. lra.
Qed.
End Loss.
(** a number that changes changes between two neighbours *)
Lemma change_step (f : nat -> R) m : f 0%nat <> f m -> exists j, (j < m)%nat /\ f j <> f (j + 1)%nat.
Proof.
  induction m as [|m IH]; intros H; [congruence|]. destruct (Req_dec (f m) (f (Datatypes.S m))) as [E|E].
  - destruct IH as (j & J & D); [congruence|]. exists j. split; [lia|exact D].
  - exists m. split; [lia|]. rewrite Nat.add_1_r. exact E.
Qed.
