(** Proofs about process.py: fractional octave smoothing. *)
From Verif Require Import Base BaseFacts M_utils M_sig M_process P_proc1.
Open Scope R_scope.

Lemma zfloor_spec x : IZR (zfloor x) <= x < IZR (zfloor x) + 1.
Proof. unfold zfloor. destruct (base_Int_part x). lra. Qed.
Lemma zfloor_le_iff x k : (k <= zfloor x)%Z <-> IZR k <= x.
Proof.
  pose proof (zfloor_spec x) as [A B]. split; intros H.
  - apply IZR_le in H. lra.
  - assert (k < zfloor x + 1)%Z; [|lia]. apply lt_IZR. rewrite plus_IZR. lra.
Qed.
Lemma zfloor_lt_iff x k : (zfloor x < k)%Z <-> x < IZR k.
Proof.
  pose proof (zfloor_le_iff x k) as H. split; intros G.
  - apply Rnot_le_lt. intros L. apply H in L. lia.
  - apply Z.nle_gt. intros L. apply H in L. lra.
Qed.
Lemma zceil_lt_iff x k : (k < zceil x)%Z <-> IZR k < x.
Proof.
  unfold zceil. pose proof (zfloor_lt_iff (- x) (- k)) as H. rewrite opp_IZR in H.
  split; intros G; [assert (zfloor (- x) < - k)%Z by lia|]; [apply H in H0; lra|].
  assert (zfloor (- x) < - k)%Z; [apply H; lra|lia].
Qed.

Lemma Rpower_gt_1 a y : 1 < a -> 0 < y -> 1 < Rpower a y.
Proof.
  intros Ha Hy. unfold Rpower. rewrite <- exp_0. apply exp_increasing.
  apply Rmult_lt_0_compat; auto. rewrite <- ln_1. apply ln_increasing; lra.
Qed.
Lemma smooth_factor_gt1 s : 0 < s -> 1 < smooth_factor s.
Proof. intros. apply Rpower_gt_1; [lra|]. apply Rdiv_lt_0_compat; lra. Qed.

(** ** windows *)
Lemma length_hamming M : (1 <= M)%Z -> length (hamming M) = Z.to_nat M.
Proof.
  intros H. unfold hamming. destruct (Z.ltb_spec M 1); [lia|]. destruct (Z.eqb_spec M 1) as [->|].
  - reflexivity.
  - rewrite map_length, seq_length. reflexivity.
Qed.
Lemma hamming_pos M x : In x (hamming M) -> 0 < x.
Proof.
  unfold hamming. destruct (Z.ltb M 1); [intros []|]. destruct (Z.eqb M 1).
  - intros [<-|[]]. lra.
  - intros H. apply in_map_iff in H. destruct H as (j & <- & _).
    match goal with |- context [cos ?u] => pose proof (COS_bound u) end. lra.
Qed.
Lemma length_smooth_win wt M : (1 <= M)%Z -> length (smooth_win wt M) = Z.to_nat M.
Proof. intros H. destruct wt; cbn; [apply length_hamming; auto|apply repeat_length]. Qed.
Lemma smooth_win_pos wt M x : In x (smooth_win wt M) -> 0 < x.
Proof. destruct wt; cbn; [apply hamming_pos|]. intros H. apply repeat_spec in H. lra. Qed.

Lemma lsum_pos l : l <> [] -> (forall x, In x l -> 0 < x) -> 0 < lsum l.
Proof.
  destruct l as [|x l]; [congruence|]. intros _ H. cbn.
  assert (0 <= lsum l) by (apply lsum_nonneg; intros y Hy; left; apply H; right; auto).
  specialize (H x (or_introl eq_refl)). lra.
Qed.

(** a sum over a window *)
Lemma rsum_window n lo hi f : (lo <= hi)%nat -> (hi <= n)%nat ->
  rsum n (fun j => if (Nat.leb lo j && Nat.ltb j hi)%bool then f j else 0) =
  rsum (hi - lo) (fun i => f (lo + i)%nat).
Proof.
  intros H1 H2. replace n with (lo + ((hi - lo) + (n - hi)))%nat by lia.
  rewrite rsum_app, rsum_app.
  rewrite rsum_0, (rsum_0 (n - hi)).
  - rewrite Rplus_0_l, Rplus_0_r. apply rsum_ext. intros i Hi.
    replace (Nat.leb lo (lo + i)) with true by (symmetry; apply Nat.leb_le; lia).
    replace (Nat.ltb (lo + i) hi) with true by (symmetry; apply Nat.ltb_lt; lia). reflexivity.
  - intros i Hi. replace (Nat.ltb (lo + (hi - lo + i)) hi) with false by (symmetry; apply Nat.ltb_ge; lia).
    rewrite andb_false_r. reflexivity.
  - intros i Hi. replace (Nat.leb lo i) with false by (symmetry; apply Nat.leb_gt; lia). reflexivity.
Qed.

Lemma lsum_zip_mul u v : length u = length v ->
  lsum (zip_mul u v) = rsum (length u) (fun i => nth i u 0 * nth i v 0).
Proof.
  revert v; induction u as [|x u IH]; intros [|y v] H; try discriminate; [reflexivity|].
  cbn [length]. rewrite rsum_shift. cbn [nth]. unfold zip_mul in *. cbn [combine map lsum fst snd].
  rewrite IH by (cbn in H; lia). reflexivity.
Qed.

Lemma smooth_bounds c n idx : 1 < c -> (idx < n)%nat ->
  (0 <= smooth_lo c idx <= Z.of_nat idx)%Z /\
  (Z.of_nat idx < smooth_hi c n idx <= Z.of_nat n)%Z.
Proof.
  intros Hc Hi. assert (P := pos_INR idx). rewrite INR_IZR_INZ in P.
  assert (Q : 0 <= INR idx / c <= INR idx).
  { rewrite INR_IZR_INZ. split.
    - apply Rmult_le_pos; auto. left. apply Rinv_0_lt_compat. lra.
    - apply Rmult_le_reg_r with c; [lra|]. unfold Rdiv. rewrite Rmult_assoc, Rinv_l by lra. nra. }
  rewrite INR_IZR_INZ in Q. unfold smooth_lo, smooth_hi. rewrite INR_IZR_INZ.
  split; [split|split].
  - apply zfloor_le_iff. lra.
  - apply Z.lt_succ_r. apply zfloor_lt_iff. rewrite succ_IZR. lra.
  - apply Z.min_glb_lt; [|lia]. destruct (Nat.eq_dec idx 0) as [->|H0]; [lia|].
    apply Z.lt_le_trans with (zceil (IZR (Z.of_nat idx) * c)); [|lia].
    apply zceil_lt_iff. assert (0 < IZR (Z.of_nat idx)) by (apply IZR_lt; lia). nra.
  - lia.
Qed.

Lemma smooth_window_iff c n idx j : 1 < c -> (idx < n)%nat -> (j < n)%nat ->
  ((smooth_lo c idx <= Z.of_nat j < smooth_hi c n idx)%Z <->
   (if Nat.eqb idx 0 then j = 0%nat
    else INR idx / c < INR j + 1 /\ INR j < INR idx * c)).
Proof.
  intros Hc Hi Hj. unfold smooth_lo, smooth_hi.
  destruct (Nat.eqb_spec idx 0) as [->|H0].
  - replace (INR 0 / c) with 0 by (cbn; unfold Rdiv; ring). replace (INR 0 * c) with 0 by (cbn; ring).
    assert (F : zfloor 0 = 0%Z).
    { apply Z.le_antisymm; [apply Z.lt_succ_r; apply zfloor_lt_iff; cbn; lra|apply zfloor_le_iff; lra]. }
    assert (G : (zceil 0 <= 0)%Z).
    { apply Z.nlt_ge. intros L. apply zceil_lt_iff in L. lra. }
    rewrite F. split; lia.
  - split.
    + intros [A B]. split.
      * assert (zfloor (INR idx / c) < Z.of_nat j + 1)%Z as L by lia.
        apply zfloor_lt_iff in L. rewrite plus_IZR, <- INR_IZR_INZ in L. lra.
      * assert (Z.of_nat j < Z.max (zceil (INR idx * c)) 1)%Z as L by lia.
        destruct (Z_lt_dec (Z.of_nat j) (zceil (INR idx * c))) as [L'|L'].
        -- apply zceil_lt_iff in L'. rewrite <- INR_IZR_INZ in L'. auto.
        -- assert (j = 0)%nat by lia. subst j. cbn. assert (0 < INR idx) by (apply lt_0_INR; lia). nra.
    + intros [A B]. split.
      * apply Z.lt_succ_r. apply zfloor_lt_iff. rewrite succ_IZR, <- INR_IZR_INZ. lra.
      * apply Z.min_glb_lt; [|lia]. apply Z.lt_le_trans with (zceil (INR idx * c)); [|lia].
        apply zceil_lt_iff. rewrite <- INR_IZR_INZ. auto.
Qed.

Lemma smooth_at_spec a c wt idx : 1 < c -> (idx < length a)%nat ->
  exists v w, smooth_at a c wt idx = Ok (Some v) /\
    (forall j, (j < length a)%nat ->
       if (Z.leb (smooth_lo c idx) (Z.of_nat j) && Z.ltb (Z.of_nat j) (smooth_hi c (length a) idx))%bool
       then 0 < w j else w j = 0) /\
    rsum (length a) w = 1 /\ v = rsum (length a) (fun j => w j * nth j a 0).
Proof.
  intros Hc Hi. destruct (smooth_bounds c (length a) idx Hc Hi) as [[L0 L1] [H0 H1]].
  unfold smooth_at. set (lo := smooth_lo c idx) in *. set (hi := smooth_hi c (length a) idx) in *.
  set (win := smooth_win wt (hi - lo)).
  assert (Lw : length win = (Z.to_nat hi - Z.to_nat lo)%nat).
  { unfold win. rewrite length_smooth_win by lia. lia. }
  assert (Ls : length (slice a lo hi) = length win).
  { rewrite length_slice, !norm_idx_nonneg by lia. lia. }
  assert (Ps : 0 < lsum win).
  { apply lsum_pos; [|intros x; apply smooth_win_pos]. intros E. rewrite E in Lw. cbn in Lw. lia. }
  unfold mul_arrays. rewrite Ls, Nat.eqb_refl. cbn [bind].
  replace (Reqb (lsum win) 0) with false by (symmetry; apply Reqb_false; lra).
  eexists. exists (fun j => if (Nat.leb (Z.to_nat lo) j && Nat.ltb j (Z.to_nat hi))%bool
                            then nth (j - Z.to_nat lo) win 0 / lsum win else 0).
  assert (B : forall j, (Nat.leb (Z.to_nat lo) j && Nat.ltb j (Z.to_nat hi))%bool =
                        (Z.leb lo (Z.of_nat j) && Z.ltb (Z.of_nat j) hi)%bool).
  { intros j. f_equal.
    - destruct (Nat.leb_spec (Z.to_nat lo) j), (Z.leb_spec lo (Z.of_nat j)); auto; lia.
    - destruct (Nat.ltb_spec j (Z.to_nat hi)), (Z.ltb_spec (Z.of_nat j) hi); auto; lia. }
  split; [reflexivity|]. split; [|split].
  - intros j Hj. rewrite B. destruct (Z.leb_spec lo (Z.of_nat j)); cbn [andb]; auto.
    destruct (Z.ltb_spec (Z.of_nat j) hi); auto.
    apply Rdiv_lt_0_compat; auto. apply (smooth_win_pos wt (hi - lo)). apply nth_In. fold win. lia.
  - rewrite rsum_window by lia. rewrite <- Lw.
    rewrite (rsum_ext _ _ (fun i => / lsum win * nth i win 0)).
    + rewrite rsum_scal, <- lsum_nth. field. lra.
    + intros i Hi'. replace (Z.to_nat lo + i - Z.to_nat lo)%nat with i by lia. unfold Rdiv. ring.
  - rewrite lsum_zip_mul by auto.
    rewrite (rsum_ext (length a) _ (fun j => if (Nat.leb (Z.to_nat lo) j && Nat.ltb j (Z.to_nat hi))%bool
              then nth (j - Z.to_nat lo) win 0 / lsum win * nth j a 0 else 0)).
    2:{ intros j _. destruct (_ && _)%bool; ring. }
    rewrite rsum_window by lia. rewrite <- Lw, <- rsum_scal. apply rsum_ext.
    intros i Hi'. rewrite nth_slice by (rewrite !norm_idx_nonneg by lia; lia).
    rewrite norm_idx_nonneg by lia. replace (Z.to_nat lo + i - Z.to_nat lo)%nat with i by lia.
    unfold Rdiv. ring.
Qed.
