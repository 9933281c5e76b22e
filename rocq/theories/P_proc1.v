(** Proofs about process.py: Lagrange delay, gain clipping, Hann taper, energy
    decay, loudness matching. *)
From Verif Require Import Base BaseFacts M_utils M_sig M_process.
Open Scope R_scope.

(** ** polynomial functions: degree < n *)
Definition poly (n : nat) (f : R -> R) : Prop :=
  exists c : nat -> R, forall x, f x = rsum n (fun i => c i * x ^ i).

Lemma poly_ext n f g : (forall x, f x = g x) -> poly n f -> poly n g.
Proof. intros H [c Hc]. exists c. intros x. rewrite <- H. apply Hc. Qed.

Lemma poly_zero n : poly n (fun _ => 0).
Proof.
  exists (fun _ => 0). intros x. rewrite rsum_0; auto. intros; ring.
Qed.

Lemma poly_scal n a f : poly n f -> poly n (fun x => a * f x).
Proof.
  intros [c Hc]. exists (fun i => a * c i). intros x. rewrite Hc, <- rsum_scal.
  apply rsum_ext. intros; ring.
Qed.

Lemma poly_add n f g : poly n f -> poly n g -> poly n (fun x => f x + g x).
Proof.
  intros [c Hc] [d Hd]. exists (fun i => c i + d i). intros x. rewrite Hc, Hd, <- rsum_plus.
  apply rsum_ext. intros; ring.
Qed.

Lemma poly_one : poly 1 (fun _ => 1).
Proof. exists (fun _ => 1). intros x. cbn. ring. Qed.

Lemma rsum_shift_x n (c : nat -> R) x :
  x * rsum n (fun i => c i * x ^ i) =
  rsum (S n) (fun i => (match i with O => 0 | S j => c j end) * x ^ i).
Proof.
  induction n as [|n IH]; [cbn; ring|].
  cbn [rsum] in *. rewrite Rmult_plus_distr_l, IH. cbn [pow]. ring.
Qed.

Lemma poly_le n m f : (n <= m)%nat -> poly n f -> poly m f.
Proof.
  intros Hle [c Hc]. exists (fun i => if Nat.ltb i n then c i else 0). intros x. rewrite Hc.
  induction Hle as [|m Hle IH].
  - apply rsum_ext. intros i Hi. replace (Nat.ltb i n) with true by (symmetry; apply Nat.ltb_lt; auto). ring.
  - cbn [rsum]. rewrite <- IH. replace (Nat.ltb m n) with false by (symmetry; apply Nat.ltb_ge; auto). ring.
Qed.

Lemma poly_lin n a b f : poly n f -> poly (S n) (fun x => (a * x + b) * f x).
Proof.
  intros H. apply poly_ext with (fun x => a * (x * f x) + b * f x); [intros; ring|].
  apply poly_add.
  - apply poly_scal. destruct H as [c Hc]. exists (fun i => match i with O => 0 | S j => c j end).
    intros x. rewrite Hc. apply rsum_shift_x.
  - apply poly_scal. apply poly_le with n; auto.
Qed.

Lemma poly_sum k n (f : nat -> R -> R) : (forall i, (i < k)%nat -> poly n (f i)) ->
  poly n (fun x => rsum k (fun i => f i x)).
Proof.
  induction k as [|k IH]; intros H; cbn [rsum]; [apply poly_zero|].
  apply poly_add; [apply IH; intros; apply H; lia|apply H; lia].
Qed.

(** factor theorem *)
Lemma pow_diff_factor a n : exists f, poly n f /\ forall x, x ^ n - a ^ n = (x - a) * f x.
Proof.
  induction n as [|n [f [Pf Hf]]].
  - exists (fun _ => 0). split; [apply poly_zero|]. intros; cbn; ring.
  - exists (fun x => (1 * x + 0) * f x + a ^ n). split.
    + apply poly_add; [apply poly_lin; auto|]. apply poly_le with 1%nat; [lia|].
      exists (fun _ => a ^ n). intros; cbn; ring.
    + intros x. cbn [pow]. replace (x * x ^ n - a * a ^ n) with (x * (x ^ n - a ^ n) + (x - a) * a ^ n) by ring.
      rewrite Hf. ring.
Qed.

Lemma poly_factor n f a : poly (S n) f -> f a = 0 ->
  exists g, poly n g /\ forall x, f x = (x - a) * g x.
Proof.
  intros [c Hc] Ha.
  assert (H : forall k, (k <= S n)%nat -> exists g, poly n g /\
     forall x, rsum k (fun i => c i * x ^ i) - rsum k (fun i => c i * a ^ i) = (x - a) * g x).
  { induction k as [|k IH]; intros Hk.
    - exists (fun _ => 0). split; [apply poly_zero|]. intros; cbn; ring.
    - destruct (IH ltac:(lia)) as (g & Pg & Hg). destruct (pow_diff_factor a k) as (h & Ph & Hh).
      exists (fun x => g x + c k * h x). split.
      + apply poly_add; auto. apply poly_scal. apply poly_le with k; auto; lia.
      + intros x. cbn [rsum]. specialize (Hg x). specialize (Hh x).
        replace (rsum k (fun i => c i * x ^ i) + c k * x ^ k - (rsum k (fun i => c i * a ^ i) + c k * a ^ k))
          with (rsum k (fun i => c i * x ^ i) - rsum k (fun i => c i * a ^ i) + c k * (x ^ k - a ^ k)) by ring.
        rewrite Hg, Hh. ring. }
  destruct (H (S n) ltac:(lia)) as (g & Pg & Hg). exists g. split; auto.
  intros x. rewrite <- Hg, <- !Hc, Ha. ring.
Qed.

(** a polynomial of degree < n with n distinct roots vanishes *)
Lemma poly_roots n f (r : nat -> R) : poly n f ->
  (forall i j, (i < n)%nat -> (j < n)%nat -> r i = r j -> i = j) ->
  (forall i, (i < n)%nat -> f (r i) = 0) -> forall x, f x = 0.
Proof.
  revert f. induction n as [|n IH]; intros f Pf Hr Hz x.
  - destruct Pf as [c Hc]. rewrite Hc. reflexivity.
  - destruct (poly_factor n f (r n) Pf (Hz n ltac:(lia))) as (g & Pg & Hg).
    rewrite Hg, (IH g Pg); [ring| |].
    + intros; apply Hr; auto; lia.
    + intros i Hi. specialize (Hz i ltac:(lia)). rewrite Hg in Hz.
      apply Rmult_integral in Hz. destruct Hz as [Hz|Hz]; auto.
      exfalso. assert (i = n) by (apply Hr; auto; lra). lia.
Qed.

(** ** Lagrange *)
Fixpoint lprod (n i : nat) (x : R) : R :=
  match n with
  | O => 1
  | S k => lprod k i x * (if Nat.eqb i k then 1 else (x - INR k) / (INR i - INR k))
  end.

Lemma length_lagrange_step d h k : length (lagrange_step d h k) = length h.
Proof. unfold lagrange_step. rewrite map_length, combine_length, seq_length. lia. Qed.

Lemma nth_lagrange_step d h k i : (i < length h)%nat ->
  nth i (lagrange_step d h k) 0 =
  nth i h 0 * (if Nat.eqb i k then 1 else (d - INR k) / (INR i - INR k)).
Proof.
  intros Hi. unfold lagrange_step.
  rewrite (nth_map_in _ _ i 0 (0%nat, 0)) by (rewrite combine_length, seq_length; lia).
  rewrite combine_nth by (rewrite seq_length; auto).
  rewrite seq_nth by auto. cbn [fst snd plus]. destruct (Nat.eqb i k); [ring|]. unfold Rdiv. ring.
Qed.

Lemma lagrange_fold d m : forall n h, (forall i, (i < length h)%nat -> nth i h 0 = lprod n i d) ->
  let h' := fold_left (lagrange_step d) (seq n m) h in
  length h' = length h /\ forall i, (i < length h)%nat -> nth i h' 0 = lprod (n + m) i d.
Proof.
  induction m as [|m IH]; intros n h H; cbn [seq fold_left].
  - split; auto. intros. rewrite Nat.add_0_r. auto.
  - destruct (IH (S n) (lagrange_step d h n)) as [A B].
    + intros i Hi. rewrite length_lagrange_step in Hi. rewrite nth_lagrange_step by auto.
      rewrite H by auto. reflexivity.
    + rewrite length_lagrange_step in *. split; auto. intros i Hi.
      rewrite B by auto. f_equal. lia.
Qed.

Lemma lagrange_spec N d : length (lagrange_delay N d) = (N + 1)%nat /\
  forall i, (i < N + 1)%nat -> nth i (lagrange_delay N d) 0 = lprod (N + 1) i d.
Proof.
  unfold lagrange_delay.
  destruct (lagrange_fold d (N + 1) 0 (repeat 1 (N + 1))) as [A B].
  - rewrite repeat_length. intros i Hi. cbn. apply nth_repeat_in; auto.
  - rewrite repeat_length in *. auto.
Qed.

Lemma lprod_poly n i : poly (if Nat.ltb i n then n else S n) (lprod n i).
Proof.
  induction n as [|n IH]; cbn [lprod].
  - cbn. apply poly_one.
  - destruct (Nat.eqb_spec i n) as [->|Hne].
    + rewrite (proj2 (Nat.ltb_lt _ _)) by lia. rewrite Nat.ltb_irrefl in IH.
      eapply poly_ext; [|exact IH]. intros; cbn; ring.
    + assert (E : (if Nat.ltb i (S n) then S n else S (S n)) = S (if Nat.ltb i n then n else S n)).
      { destruct (Nat.ltb_spec i n), (Nat.ltb_spec i (S n)); lia. }
      rewrite E.
      apply poly_ext with (fun x => (/ (INR i - INR n) * x + (- INR n / (INR i - INR n))) * lprod n i x).
      * intros x. unfold Rdiv. ring.
      * apply poly_lin. exact IH.
Qed.

Lemma INR_neq i j : i <> j -> INR i - INR j <> 0.
Proof. intros H E. apply H. apply INR_eq. lra. Qed.

Lemma lprod_self n i : lprod n i (INR i) = 1.
Proof.
  induction n as [|n IH]; cbn [lprod]; auto. rewrite IH.
  destruct (Nat.eqb_spec i n); [ring|]. field. apply INR_neq; auto.
Qed.

Lemma lprod_other n i j : i <> j -> (j < n)%nat -> lprod n i (INR j) = 0.
Proof.
  intros Hne. induction n as [|n IH]; intros Hj; [lia|]. cbn [lprod].
  destruct (Nat.eq_dec j n) as [->|Hjn].
  - replace (Nat.eqb i n) with false by (symmetry; apply Nat.eqb_neq; auto).
    unfold Rdiv. rewrite Rminus_diag_eq by auto. ring.
  - rewrite IH by lia. ring.
Qed.

Lemma lagrange_exact N d (p : R -> R) : poly (S N) p ->
  rsum (N + 1) (fun k => nth k (lagrange_delay N d) 0 * p (INR k)) = p d.
Proof.
  intros Hp. destruct (lagrange_spec N d) as [_ H].
  rewrite (rsum_ext _ _ (fun k => lprod (N + 1) k d * p (INR k))) by (intros; rewrite H by auto; auto).
  apply Rminus_diag_uniq.
  apply (poly_roots (N + 1) (fun x => rsum (N + 1) (fun k => lprod (N + 1) k x * p (INR k)) - p x) INR).
  - unfold Rminus. apply poly_add.
    + apply poly_sum. intros i Hi. apply poly_ext with (fun x => p (INR i) * lprod (N + 1) i x); [intros; ring|].
      apply poly_scal. pose proof (lprod_poly (N + 1) i) as P.
      replace (Nat.ltb i (N + 1)) with true in P by (symmetry; apply Nat.ltb_lt; auto). exact P.
    + apply poly_ext with (fun x => -1 * p x); [intros; ring|]. apply poly_scal.
      replace (N + 1)%nat with (S N) by lia. exact Hp.
  - intros i j _ _ E. apply INR_eq; auto.
  - intros j Hj. rewrite (rsum_single _ j); auto.
    + rewrite lprod_self. ring.
    + intros k Hk Hne. rewrite lprod_other by auto. ring.
Qed.

Lemma lagrange_impulse N D : (D <= N)%nat ->
  forall k, (k <= N)%nat -> nth k (lagrange_delay N (INR D)) 0 = delta k D.
Proof.
  intros HD k Hk. destruct (lagrange_spec N (INR D)) as [_ H]. rewrite H by lia.
  unfold delta. destruct (Nat.eqb_spec k D) as [->|Hne].
  - apply lprod_self.
  - apply lprod_other; auto; lia.
Qed.

(** ** tanh *)
Lemma cosh_pos x : 0 < cosh x.
Proof. unfold cosh. pose proof (exp_pos x). pose proof (exp_pos (- x)). lra. Qed.

Lemma tanh_exp x : tanh x = 1 - 2 / (exp (2 * x) + 1).
Proof.
  unfold tanh, sinh, cosh. pose proof (exp_pos x).
  replace (2 * x) with (x + x) by ring. rewrite exp_plus, exp_Ropp.
  field. repeat split; nra.
Qed.

Lemma tanh_lt_1 x : tanh x < 1.
Proof.
  rewrite tanh_exp. pose proof (exp_pos (2 * x)).
  assert (0 < 2 / (exp (2 * x) + 1)) by (apply Rdiv_lt_0_compat; lra). lra.
Qed.

Lemma tanh_incr x y : x < y -> tanh x < tanh y.
Proof.
  intros H. rewrite !tanh_exp. assert (exp (2 * x) < exp (2 * y)) by (apply exp_increasing; lra).
  pose proof (exp_pos (2 * x)).
  assert (2 / (exp (2 * y) + 1) < 2 / (exp (2 * x) + 1)); [|lra].
  unfold Rdiv. apply Rmult_lt_compat_l; [lra|]. apply Rinv_lt_contravar; [|lra]. nra.
Qed.

Lemma tanh_0 : tanh 0 = 0.
Proof. rewrite tanh_exp, Rmult_0_r, exp_0. field. Qed.

Lemma tanh_pos x : 0 < x -> 0 < tanh x.
Proof. intros. rewrite <- tanh_0. apply tanh_incr; auto. Qed.

(** x cosh x - sinh x is increasing for x > 0 *)
Lemma tanh_lt_id x : 0 < x -> tanh x < x.
Proof.
  intros Hx.
  set (f := fun x => x * cosh x - sinh x).
  assert (D : forall c, 0 <= c <= x -> derivable_pt_lim f c (1 * cosh c + c * sinh c - cosh c)).
  { intros c _. unfold f. apply derivable_pt_lim_minus.
    - apply (derivable_pt_lim_mult (fun x => x) cosh).
      + apply derivable_pt_lim_id.
      + apply derivable_pt_lim_cosh.
    - apply derivable_pt_lim_sinh. }
  destruct (MVT_cor2 f _ 0 x Hx D) as (c & Hc & Hc1).
  assert (S : 0 < sinh c).
  { unfold sinh. assert (exp (- c) < exp c) by (apply exp_increasing; lra). lra. }
  assert (F : 0 < f x).
  { assert (F0 : f 0 = 0) by (unfold f; rewrite sinh_0; ring).
    assert (E : f x = c * sinh c * x) by (rewrite F0 in Hc; lra).
    rewrite E. apply Rmult_lt_0_compat; [|lra]. apply Rmult_lt_0_compat; lra. }
  unfold f in F. unfold tanh. pose proof (cosh_pos x).
  apply Rmult_lt_reg_r with (cosh x); auto. unfold Rdiv.
  rewrite Rmult_assoc, Rinv_l by lra. lra.
Qed.

Lemma clip1_low t g : 0 < t -> g <= t -> clip1 t g = g.
Proof.
  intros Ht Hg. unfold clip1. replace (Rltb 1 (g / t)) with false.
  - field. lra.
  - symmetry. apply Rltb_false. apply Rmult_le_reg_r with t; auto. unfold Rdiv.
    rewrite Rmult_assoc, Rinv_l by lra. lra.
Qed.

Lemma clip1_high t g : 0 < t -> t < g -> clip1 t g = (1 + tanh (g / t - 1)) * t /\ 0 < g / t - 1.
Proof.
  intros Ht Hg. assert (1 < g / t).
  { apply Rmult_lt_reg_r with t; auto. unfold Rdiv. rewrite Rmult_assoc, Rinv_l by lra. lra. }
  unfold clip1. replace (Rltb 1 (g / t)) with true by (symmetry; apply Rltb_true; auto).
  split; auto. lra.
Qed.

Lemma clip1_range t g : 0 < t -> t < g -> t < clip1 t g < 2 * t /\ clip1 t g < g.
Proof.
  intros Ht Hg. destruct (clip1_high t g Ht Hg) as [-> H].
  pose proof (tanh_pos _ H). pose proof (tanh_lt_1 (g / t - 1)). pose proof (tanh_lt_id _ H).
  split; [nra|]. replace g with (g / t * t) at 2 by (field; lra). nra.
Qed.

Lemma clip1_incr t g h : 0 < t -> g < h -> clip1 t g < clip1 t h.
Proof.
  intros Ht H. destruct (Rle_lt_dec g t) as [Lg|Lg].
  - rewrite (clip1_low t g) by auto. destruct (Rle_lt_dec h t) as [Lh|Lh].
    + rewrite clip1_low; auto.
    + destruct (clip1_range t h Ht Lh) as [[A _] _]. lra.
  - destruct (clip1_high t g Ht Lg) as [-> _].
    destruct (clip1_high t h Ht ltac:(lra)) as [-> _].
    apply Rmult_lt_compat_r; auto. apply Rplus_lt_compat_l. apply tanh_incr.
    apply Rplus_lt_compat_r. unfold Rdiv. apply Rmult_lt_compat_r; auto. apply Rinv_0_lt_compat; auto.
Qed.

(** ** half sided Hann *)
Lemma nth_hann M j : (j < Z.to_nat M)%nat ->
  nth j (hann_sym M) 0 = 1 / 2 - 1 / 2 * cos (2 * PI * INR j / IZR (M - 1)).
Proof.
  intros Hj. unfold hann_sym. rewrite nth_map_seq; auto.
Qed.
Lemma length_hann M : length (hann_sym M) = Z.to_nat M.
Proof. unfold hann_sym. rewrite map_length, seq_length. auto. Qed.

Lemma half_hann_spec N : (3 <= N)%Z ->
  exists w, half_sided_Hann N = Ok w /\ length w = Z.to_nat (N + 1) /\
    let H := ((N + 1) / 2)%Z in
    forall i, (i < length w)%nat ->
      nth i w 0 = if Z.leb (N + 2 - H) (Z.of_nat i)
                  then 1 / 2 + 1 / 2 * cos (PI * IZR (Z.of_nat i - (N + 1 - H)) / IZR H)
                  else 1.
Proof.
  intros HN. unfold half_sided_Hann.
  replace (Z.leb 3 N) with true by (symmetry; apply Z.leb_le; auto). cbn [assert_ bind].
  set (H := ((N + 1) / 2)%Z).
  assert (EH : ((N - 1) / 2 = H - 1)%Z).
  { unfold H. replace (N + 1)%Z with (N - 1 + 1 * 2)%Z by lia. rewrite Z.div_add by lia. lia. }
  assert (HH : (2 <= H /\ 2 * H <= N + 1)%Z).
  { unfold H. split; [apply Z.div_le_lower_bound; lia|apply Z.mul_div_le; lia]. }
  rewrite EH.
  set (v := slice (hann_sym (2 * H + 1)) (- H) (-1)).
  set (l := repeat 1 (Z.to_nat (N + 1))).
  assert (Ll : length l = Z.to_nat (N + 1)) by apply repeat_length.
  assert (Lv : length v = Z.to_nat (H - 1)).
  { unfold v. rewrite length_slice, length_hann. unfold norm_idx.
    destruct (Z.ltb_spec (-1) 0); [|lia]. destruct (Z.ltb_spec (- H) 0); [|lia]. lia. }
  assert (Ea : norm_idx (length l) (- (H - 1)) = Z.to_nat (N + 2 - H)).
  { rewrite Ll. unfold norm_idx. destruct (Z.ltb_spec (- (H - 1)) 0); [|lia]. lia. }
  assert (Eb : norm_idx (length l) (Z.of_nat (length l)) = length l).
  { unfold norm_idx. destruct (Z.ltb_spec (Z.of_nat (length l)) 0); lia. }
  unfold set_from. destruct (slice_set l (- (H - 1)) (Z.of_nat (length l)) v) as [w|e] eqn:E.
  2:{ exfalso. unfold slice_set in E. rewrite Ea, Eb in E.
      replace (Nat.eqb (length v) _) with true in E; [discriminate|].
      symmetry. apply Nat.eqb_eq. rewrite Ll, Lv. lia. }
  exists w. split; auto.
  assert (Lw : length w = length l).
  { eapply length_slice_set; eauto. }
  split; [congruence|]. cbn zeta. intros i Hi.
  unfold slice_set in E. rewrite Ea, Eb in E.
  replace (Nat.eqb (length v) _) with true in E by (symmetry; apply Nat.eqb_eq; rewrite Ll, Lv; lia).
  injection E as E. rewrite <- E.
  assert (Lf : length (firstn (Z.to_nat (N + 2 - H)) l) = Z.to_nat (N + 2 - H)).
  { rewrite firstn_length, Ll. lia. }
  destruct (Z.leb_spec (N + 2 - H) (Z.of_nat i)) as [Hge|Hlt].
  - rewrite app_nth2 by lia. rewrite Lf.
    rewrite app_nth1 by (rewrite Lv; lia). unfold v. rewrite nth_slice.
    2:{ rewrite <- length_slice. fold v. rewrite Lv. lia. }
    assert (Es : norm_idx (length (hann_sym (2 * H + 1))) (- H) = Z.to_nat (H + 1)).
    { rewrite length_hann. unfold norm_idx. destruct (Z.ltb_spec (- H) 0); lia. }
    rewrite Es, nth_hann by lia.
    replace (2 * H + 1 - 1)%Z with (2 * H)%Z by lia.
    rewrite INR_IZR_INZ, mult_IZR.
    replace (Z.of_nat (Z.to_nat (H + 1) + (i - Z.to_nat (N + 2 - H))))%Z with (H + (Z.of_nat i - (N + 1 - H)))%Z by lia.
    rewrite plus_IZR. set (z := IZR (Z.of_nat i - (N + 1 - H))). 
    assert (0 < IZR H) by (apply IZR_lt; lia).
    replace (2 * PI * (IZR H + z) / (2 * IZR H)) with (PI * z / IZR H + PI) by (field; lra).
    rewrite neg_cos. ring.
  - rewrite app_nth1 by lia. rewrite nth_firstn by lia. unfold l.
    apply nth_repeat_in. lia.
Qed.

(** ** energy decay *)
Lemma lsum_sq_nonneg l : 0 <= lsum (map (fun x => x ^ 2) l).
Proof. induction l as [|x l IH]; cbn [map lsum]; [lra|]. pose proof (pow2_ge_0 x). lra. Qed.

Lemma trapz_lsum l x : trapz (x :: l) = lsum (x :: l) - (x + last (x :: l) 0) / 2.
Proof.
  revert x; induction l as [|y l IH]; intros x.
  - cbn. field.
  - change (trapz (x :: y :: l)) with ((x + y) / 2 + trapz (y :: l)). rewrite IH.
    change (last (x :: y :: l) 0) with (last (y :: l) 0). cbn [lsum]. field.
Qed.

Lemma length_tail_sums q : length (tail_sums q) = length q.
Proof. induction q; cbn [tail_sums length]; auto. Qed.

Lemma nth_tail_sums q i : nth i (tail_sums q) 0 = lsum (skipn i q).
Proof.
  revert i; induction q as [|x q IH]; intros [|i]; cbn [tail_sums nth skipn]; auto.
Qed.

Lemma tail_sums_decr q i j : (forall x, In x q -> 0 <= x) -> (i <= j)%nat ->
  lsum (skipn j q) <= lsum (skipn i q).
Proof.
  revert i j; induction q as [|x q IH]; intros i j Hq Hij.
  - rewrite !skipn_nil. lra.
  - destruct i as [|i], j as [|j]; cbn [skipn]; try lia; try lra.
    + cbn [lsum]. specialize (IH 0%nat j ltac:(intros; apply Hq; right; auto) ltac:(lia)).
      cbn [skipn] in IH. specialize (Hq x ltac:(left; auto)). lra.
    + apply IH; [intros; apply Hq; right; auto|lia].
Qed.

Lemma log10_le x y : 0 < x -> x <= y -> log10 x <= log10 y.
Proof.
  intros Hx H. unfold log10. apply Rmult_le_compat_r.
  - left. apply Rinv_0_lt_compat. rewrite <- ln_1. apply ln_increasing; lra.
  - destruct H as [H|H]; [left; apply ln_increasing; auto|subst; lra].
Qed.
Lemma log10_lt x y : 0 < x -> x < y -> log10 x < log10 y.
Proof.
  intros Hx H. unfold log10. apply Rmult_lt_compat_r.
  - apply Rinv_0_lt_compat. rewrite <- ln_1. apply ln_increasing; lra.
  - apply ln_increasing; auto.
Qed.
Lemma log10_1 : log10 1 = 0.
Proof. unfold log10. rewrite ln_1. unfold Rdiv. ring. Qed.

(** ** loudness *)
Lemma rmax_from_ge x l : x <= rmax_from x l /\ (forall y, In y l -> y <= rmax_from x l).
Proof.
  unfold rmax_from. revert x; induction l as [|y l IH]; intros x; cbn [fold_left].
  - split; [lra|intros y []].
  - destruct (IH (Rmax x y)) as [A B]. split.
    + pose proof (Rmax_l x y). lra.
    + intros z [->|Hz]; auto. pose proof (Rmax_r x z). lra.
Qed.
Lemma rmax_from_in x l : rmax_from x l = x \/ In (rmax_from x l) l.
Proof.
  unfold rmax_from. revert x; induction l as [|y l IH]; intros x; cbn [fold_left]; [auto|].
  destruct (IH (Rmax x y)) as [A|A]; [|right; right; auto].
  rewrite A. unfold Rmax. destruct (Rle_dec x y); [right; left; auto|left; auto].
Qed.
Lemma np_max_spec l m : np_max l = Ok m -> In m l /\ forall y, In y l -> y <= m.
Proof.
  destruct l as [|x l]; cbn [np_max]; [discriminate|]. intros [= <-].
  destruct (rmax_from_ge x l) as [A B]. split.
  - destruct (rmax_from_in x l) as [E|E]; [left; auto|right; auto].
  - intros y [->|Hy]; auto.
Qed.
Lemma np_max_ok l : l <> [] -> exists m, np_max l = Ok m.
Proof. destruct l; [congruence|]. intros _. eexists. reflexivity. Qed.

Lemma col_rms_scal a s j : (0 < nr a)%nat -> 0 <= s ->
  col_rms (Mat (nr a) (nc a) (fun i j => s * ent a i j)) j = s * col_rms a j.
Proof.
  intros Hn Hs. unfold col_rms. cbn [nr ent].
  rewrite (rsum_ext _ _ (fun i => s ^ 2 * (ent a i j) ^ 2)) by (intros; ring).
  rewrite rsum_scal. unfold Rdiv. rewrite Rmult_assoc, sqrt_mult_alt by apply pow2_ge_0.
  rewrite sqrt_pow2 by auto. reflexivity.
Qed.

Lemma col_rms_ext a b j : nr a = nr b -> (forall i, (i < nr a)%nat -> ent a i j = ent b i j) ->
  col_rms a j = col_rms b j.
Proof. intros H E. unfold col_rms. rewrite <- H. do 2 f_equal. apply rsum_ext. intros. rewrite E; auto. Qed.

Lemma col_rms_nonneg a j : 0 <= col_rms a j.
Proof. apply sqrt_pos. Qed.

Lemma loudness_max a : (0 < nc a)%nat -> exists L, loudness a = Ok L /\
  (exists j, (j < nc a)%nat /\ col_rms a j = L) /\ (forall j, (j < nc a)%nat -> col_rms a j <= L).
Proof.
  intros Hc. unfold loudness. destruct (np_max_ok (map (col_rms a) (seq 0 (nc a)))) as [L E].
  { destruct (nc a); [lia|]. discriminate. }
  exists L. split; auto. destruct (np_max_spec _ _ E) as [A B]. split.
  - apply in_map_iff in A. destruct A as (j & A1 & A2). apply in_seq in A2. exists j. split; auto; lia.
  - intros j Hj. apply B. apply in_map. apply in_seq. lia.
Qed.

Lemma peak_max a : (0 < nr a)%nat -> (0 < nc a)%nat -> exists p, peak_abs a = Ok p /\
  (exists i j, (i < nr a)%nat /\ (j < nc a)%nat /\ Rabs (ent a i j) = p) /\
  (forall i j, (i < nr a)%nat -> (j < nc a)%nat -> Rabs (ent a i j) <= p).
Proof.
  intros Hr Hc. unfold peak_abs.
  set (l := flat_map _ _).
  assert (IN : forall x, In x l <-> exists i j, (i < nr a)%nat /\ (j < nc a)%nat /\ Rabs (ent a i j) = x).
  { intros x. unfold l. rewrite in_flat_map. split.
    - intros (i & Hi & Hx). apply in_seq in Hi. apply in_map_iff in Hx. destruct Hx as (j & E & Hj).
      apply in_seq in Hj. exists i, j. repeat split; auto; lia.
    - intros (i & j & Hi & Hj & E). exists i. split; [apply in_seq; lia|].
      apply in_map_iff. exists j. split; auto. apply in_seq. lia. }
  destruct (np_max_ok l) as [p E].
  { intros E. assert (In (Rabs (ent a 0 0)) l) by (apply IN; exists 0%nat, 0%nat; auto).
    rewrite E in H. destruct H. }
  exists p. split; auto. destruct (np_max_spec _ _ E) as [A B]. split.
  - apply IN. auto.
  - intros i j Hi Hj. apply B. apply IN. eauto.
Qed.

Lemma match_loudness_spec a t La Lt :
  (0 < nr a)%nat -> (0 < nc a)%nat -> (0 < nr t)%nat -> (0 < nc t)%nat ->
  loudness a = Ok La -> loudness t = Ok Lt -> 0 < La -> 0 < Lt ->
  exists out s, match_loudness a t = Ok (Some out) /\ 0 < s /\
    nr out = nr a /\ nc out = nc a /\
    (forall i j, (i < nr a)%nat -> (j < nc a)%nat -> ent out i j = s * ent a i j) /\
    (forall i j, (i < nr a)%nat -> (j < nc a)%nat -> Rabs (ent out i j) <= 1) /\
    ((loudness out = Ok Lt) \/
     (peak_abs out = Ok 1 /\ exists L, loudness out = Ok L /\ L < Lt)).
Proof.
  intros Hr Hc Htr Htc HLa HLt Pa Pt. unfold match_loudness.
  replace (Nat.eqb (nr a) 0) with false by (symmetry; apply Nat.eqb_neq; lia).
  replace (Nat.eqb (nr t) 0) with false by (symmetry; apply Nat.eqb_neq; lia).
  cbn [orb]. rewrite HLa, HLt. cbn [bind].
  replace (Reqb La 0) with false by (symmetry; apply Reqb_false; lra).
  set (out := Mat (nr a) (nc a) (fun i j => ent a i j * Lt / La)).
  assert (LS : forall s m, 0 < s -> nr m = nr a -> nc m = nc a ->
     (forall i j, (i < nr a)%nat -> (j < nc a)%nat -> ent m i j = s * ent a i j) ->
     loudness m = Ok (s * La)).
  { intros s m Hs Hm1 Hm2 Hm.
    destruct (loudness_max m ltac:(lia)) as (L & E & (j & Hj & EL) & UB).
    destruct (loudness_max a Hc) as (L' & E' & (j' & Hj' & EL') & UB').
    assert (EQ : L' = La) by congruence. rewrite EQ in *. clear EQ.
    assert (CS : forall k, (k < nc a)%nat -> col_rms m k = s * col_rms a k).
    { intros k Hk. rewrite <- col_rms_scal by (auto; lra). apply col_rms_ext; cbn; auto.
      intros i Hi. apply Hm; auto; lia. }
    rewrite E. f_equal. apply Rle_antisym.
    - rewrite <- EL, CS by lia. apply Rmult_le_compat_l; [lra|]. apply UB'. lia.
    - rewrite <- EL', <- CS by auto. apply UB. lia. }
  assert (Hs0 : 0 < Lt / La) by (apply Rdiv_lt_0_compat; auto).
  assert (Ho : forall i j, (i < nr a)%nat -> (j < nc a)%nat -> ent out i j = Lt / La * ent a i j).
  { intros. cbn. unfold Rdiv. ring. }
  assert (Lo : loudness out = Ok Lt).
  { rewrite (LS (Lt / La) out Hs0); auto. f_equal. field. lra. }
  destruct (peak_max out) as (p & Ep & (pi & pj & Hpi & Hpj & Epk) & Bp); auto.
  rewrite Ep. cbn [bind]. destruct (Rltb 1 p) eqn:E; [apply Rltb_true in E|apply Rltb_false in E].
  - set (out2 := Mat (nr out) (nc out) (fun i j => ent out i j / p)).
    assert (B2 : forall i j, (i < nr a)%nat -> (j < nc a)%nat -> Rabs (ent out2 i j) = Rabs (ent out i j) / p).
    { intros. cbn [out2 ent]. unfold Rdiv. rewrite Rabs_mult. apply Rmult_eq_compat_l.
      apply Rabs_pos_eq. left. apply Rinv_0_lt_compat. lra. }
    exists out2, (Lt / La / p). split; auto. split; [apply Rdiv_lt_0_compat; lra|].
    split; auto. split; auto. split.
    { intros. cbn. field. lra. }
    split.
    { intros i j Hi Hj. rewrite B2 by auto. apply Rmult_le_reg_r with p; [lra|]. unfold Rdiv.
      rewrite Rmult_assoc, Rinv_l by lra. specialize (Bp i j Hi Hj). lra. }
    right. split.
    + destruct (peak_max out2) as (q & Eq & (qi & qj & Hqi & Hqj & Eqk) & Bq); auto.
      rewrite Eq. f_equal. cbn [nr nc out2 out] in *. apply Rle_antisym.
      * rewrite <- Eqk, B2 by auto. apply Rmult_le_reg_r with p; [lra|]. unfold Rdiv.
        rewrite Rmult_assoc, Rinv_l by lra. specialize (Bp qi qj Hqi Hqj). lra.
      * specialize (Bq pi pj Hpi Hpj). rewrite B2, Epk in Bq by auto. unfold Rdiv in Bq. rewrite Rinv_r in Bq by lra. auto.
    + exists (Lt / La / p * La). split.
      * apply LS; auto; [apply Rdiv_lt_0_compat; lra|]. intros. cbn. field. lra.
      * replace (Lt / La / p * La) with (Lt * / p) by (field; lra).
        rewrite <- (Rmult_1_r Lt) at 2. apply Rmult_lt_compat_l; auto.
        rewrite <- Rinv_1. apply Rinv_lt_contravar; lra.
  - exists out, (Lt / La). repeat split; auto. intros i j Hi Hj. specialize (Bp i j Hi Hj). lra.
Qed.
