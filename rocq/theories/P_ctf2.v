(** hrirs_ctf: levels, weights and inverse of the whole function. *)
From Verif Require Import Base BaseFacts M_utils M_sig M_process M_sph M_grids M_parsa2 M_parsa3 M_decoder4 M_process2 S_process S_magls S_ctf P_utils P_sig P_parsa3 P_parsa9 P_sph6 P_sph7 P_proc2 P_proc5 P_magls1 P_magls2 P_magls3 P_magls4 X_process P_ctf1.
Open Scope R_scope.

Lemma all_some_map {A} (l : list A) : all_some (map Some l) = Some l.
Proof. induction l as [|x l IH]; [reflexivity|]. cbn [map all_some]. rewrite IH. reflexivity. Qed.
Lemma all_some_none {A} (l : list (option A)) : In None l -> all_some l = None.
Proof. induction l as [|[x|] l IH]; [intros []|intros [H|H]; [discriminate|]|reflexivity]. cbn [all_some]. rewrite IH by exact H. reflexivity. Qed.
Lemma avg_at w x n k : length w = length x -> (2 <= n)%nat -> (k <= n / 2)%nat ->
  ctf_avg_at w (map (fun r => rfft_n r n) x) k = if Rltb (energy w x n k) 0 then None else Some (level w x n k).
Proof.
  intros L N K. unfold ctf_avg_at.
  assert (E : lsum (map (fun q => fst q * cabs (nth k (snd q) (0, 0)) ^ 2) (combine w (map (fun r => rfft_n r n) x))) = energy w x n k).
  { unfold energy. rewrite lsum_nth, map_length, combine_length, map_length, L, Nat.min_id. apply rsum_ext. intros g Hg.
    rewrite (nth_map_in _ _ g 0 (0, [])) by (rewrite combine_length, map_length; lia). rewrite combine_nth by (rewrite map_length; exact L). cbn [fst snd].
    rewrite (nth_map_in _ x g [] []) by exact Hg. rewrite nth_rfft_n by lia. reflexivity. }
  rewrite E. reflexivity.
Qed.
Lemma avg_ok w x n : length w = length x -> (2 <= n)%nat -> (forall k, (k <= n / 2)%nat -> 0 <= energy w x n k) ->
  ctf_avg w (map (fun r => rfft_n r n) x) (n / 2 + 1) = Some (map (level w x n) (seq 0 (n / 2 + 1))).
Proof.
  intros L N P. unfold ctf_avg. rewrite (map_ext_in _ (fun k => Some (level w x n k))).
  - rewrite <- (map_map (level w x n) Some). apply all_some_map.
  - intros k Hk. apply in_seq in Hk. rewrite avg_at by (assumption || lia). destruct (Rltb (energy w x n k) 0) eqn:T; [|reflexivity]. apply Rltb_true in T. specialize (P k ltac:(lia)). lra.
Qed.
Lemma avg_neg w x n k : length w = length x -> (2 <= n)%nat -> (k <= n / 2)%nat -> energy w x n k < 0 ->
  ctf_avg w (map (fun r => rfft_n r n) x) (n / 2 + 1) = None.
Proof.
  intros L N K P. apply all_some_none. apply in_map_iff. exists k. split; [|apply in_seq; lia]. rewrite avg_at by assumption.
  destruct (Rltb (energy w x n k) 0) eqn:T; [reflexivity|]. apply Rltb_false in T. lra.
Qed.
Lemma freqs_eq n fs : rfftfreq n fs = freq_list n fs.
Proof. reflexivity. Qed.
Lemma length_rfftfreq n fs : length (rfftfreq n fs) = (n / 2 + 1)%nat.
Proof. unfold rfftfreq. rewrite map_length, seq_length. reflexivity. Qed.
Lemma nearest_at n fs f k : fs <> 0 -> n <> 0%nat -> nearest_bin n fs f k -> nearest (rfftfreq n fs) f = Ok k.
Proof.
  intros F N B. destruct (nearest_ok n fs f F N) as (k' & E & B'). rewrite (nearest_unique _ _ _ _ _ B B'). exact E.
Qed.
Lemma slice_set_ok {A} (l v : list A) a b : (a + length v = b)%nat -> (b <= length l)%nat -> slice_set l (Z.of_nat a) (Z.of_nat b) v = Ok (firstn a l ++ v ++ skipn b l).
Proof. intros E H. unfold slice_set. rewrite !norm_idx_nat by lia. rewrite Nat.max_r by lia. rewrite (proj2 (Nat.eqb_eq (length v) (b - a))) by lia. reflexivity. Qed.
Lemma length_hann1 (M : nat) : (1 <= M)%nat -> length (np_hanning (Z.of_nat M)) = M.
Proof. intros H. destruct (Nat.eq_dec M 1) as [->|]; [reflexivity|apply length_hann; lia]. Qed.
Lemma nth_hann_one (M t : nat) : (t < M)%nat -> nth t (np_hanning (Z.of_nat M)) 0 = hann M t.
Proof.
  intros H. unfold hann. destruct (Nat.eqb_spec M 1) as [->|]; [assert (t = 0)%nat as -> by lia; reflexivity|]. rewrite hann_val by lia. rewrite minus_INR by lia. reflexivity.
Qed.
Lemma ctf_weights_ok n fs lims lo hi : fs <> 0 -> n <> 0%nat -> nearest_bin n fs (fst lims) lo -> nearest_bin n fs (snd lims) hi ->
  exists fw, ctf_weights (rfftfreq n fs) lims = Ok fw /\ length fw = (n / 2 + 1)%nat /\
    forall k, (k <= n / 2)%nat -> nth k fw 0 = inversion_weight lo hi (n / 2 + 1) k.
Proof.
  intros F N BL BH. unfold ctf_weights. rewrite (nearest_at _ _ _ _ F N BL), (nearest_at _ _ _ _ F N BH). cbn [bind]. rewrite length_rfftfreq.
  set (bins := (n / 2 + 1)%nat). assert (Hlo : (lo < bins)%nat) by (destruct BL; unfold bins; lia). assert (Hhi : (hi < bins)%nat) by (destruct BH; unfold bins; lia).
  set (L := (bins - hi)%nat). assert (HL : (1 <= L)%nat) by (unfold L; lia).
  replace (2 * Z.of_nat lo + 1)%Z with (Z.of_nat (2 * lo + 1)) by lia. replace (2 * Z.of_nat L + 1)%Z with (Z.of_nat (2 * L + 1)) by lia. replace (Z.of_nat L + 1)%Z with (Z.of_nat (L + 1)) by lia.
  set (wl := slice_to (np_hanning (Z.of_nat (2 * lo + 1))) (Z.of_nat lo)). set (wh := slice_from (np_hanning (Z.of_nat (2 * L + 1))) (Z.of_nat (L + 1))).
  assert (Lwl : length wl = lo) by (unfold wl; rewrite length_slice_to, length_hann1 by lia; lia).
  assert (Lwh : length wh = L) by (unfold wh, slice_from; rewrite skipn_length, norm_idx_nat by (rewrite length_hann1 by lia; lia); rewrite length_hann1 by lia; lia).
  change 0%Z with (Z.of_nat 0). rewrite slice_set_ok by (rewrite ?repeat_length; lia). cbn [bind firstn app].
  set (w1 := wl ++ skipn lo (repeat 1 bins)). assert (L1 : length w1 = bins) by (unfold w1; rewrite app_length, skipn_length, repeat_length; lia).
  rewrite slice_set_ok by lia. eexists. split; [reflexivity|]. split; [rewrite !app_length, firstn_length, skipn_length; lia|].
  intros k Hk. unfold inversion_weight. destruct (Nat.leb_spec hi k).
  - rewrite app_nth2 by (rewrite firstn_length; lia). rewrite firstn_length, L1, Nat.min_l by lia. rewrite app_nth1 by (unfold bins in *; lia).
    unfold wh, slice_from. rewrite nth_skipn, norm_idx_nat by (rewrite length_hann1 by lia; lia). rewrite hann_val by (unfold L, bins in *; lia).
    fold L. rewrite <- Rtrigo_facts.cos_pi_plus || idtac.
    replace (2 * PI * INR (L + 1 + (k - hi)) / INR (2 * L + 1 - 1)) with (PI * INR (k - hi + 1) / INR L + PI).
    + rewrite neg_cos. lra.
    + replace (2 * L + 1 - 1)%nat with (2 * L)%nat by lia. rewrite mult_INR, !plus_INR. cbn [INR]. assert (INR L <> 0) by (apply not_0_INR; lia). field. assumption.
  - rewrite app_nth1 by (rewrite firstn_length; lia). rewrite nth_firstn by exact H. unfold w1. destruct (Nat.ltb_spec k lo).
    + rewrite app_nth1 by lia. unfold wl. rewrite nth_slice_to by (rewrite length_hann1 by lia; lia). rewrite hann_val by lia.
      replace (2 * PI * INR k / INR (2 * lo + 1 - 1)) with (PI * INR k / INR lo); [reflexivity|].
      replace (2 * lo + 1 - 1)%nat with (2 * lo)%nat by lia. rewrite mult_INR. cbn [INR]. assert (INR lo <> 0) by (apply not_0_INR; lia). field. assumption.
    + rewrite app_nth2 by lia. rewrite nth_skipn, Lwl. replace (lo + (k - lo))%nat with k by lia. clear -Hk. revert k Hk. unfold bins. generalize (n / 2)%nat as m. intros m. replace (m + 1)%nat with (S m) by lia.
      induction m; intros [|k] Hk; cbn [repeat nth]; try reflexivity; try lia. apply IHm. lia.
Qed.
Lemma inverse_ok bins lo hi i fw s : (5 <= i < bins)%nat -> length fw = bins -> length s = bins -> (forall k, (k < bins)%nat -> nth k fw 0 = inversion_weight lo hi bins k) ->
  (forall k, (k < bins)%nat -> 0 < nth k s 0) ->
  exists inv, ctf_inverse fw s i = Some inv /\ length inv = bins /\ forall k, (k < bins)%nat -> nth k inv 0 = correction lo hi bins i (fun k => nth k s 0) k.
Proof.
  intros Hi Lf Ls F P. unfold ctf_inverse. set (win := slice s (Z.of_nat i - 5) (Z.of_nat i + 5)).
  assert (N5 : norm_idx (length s) (Z.of_nat i - 5) = (i - 5)%nat) by (rewrite norm_idx_nonneg by lia; lia).
  assert (N6 : norm_idx (length s) (Z.of_nat i + 5) = Nat.min (i + 5) bins) by (unfold norm_idx; destruct (Z.ltb_spec (Z.of_nat i + 5) 0); lia).
  set (m := (Nat.min (i + 5) bins - (i - 5))%nat). assert (Hm : (1 <= m)%nat) by (unfold m; lia).
  assert (Lw : length win = m) by (unfold win; rewrite length_slice, N5, N6; unfold m; lia).
  assert (Nw : forall j, (j < m)%nat -> nth j win 0 = nth (i - 5 + j) s 0) by (intros j Hj; unfold win; rewrite nth_slice by (rewrite N5, N6; unfold m in *; lia); rewrite N5; reflexivity).
  assert (EM : np_mean (map Rabs win) = reference_level bins i (fun k => nth k s 0)).
  { unfold np_mean, reference_level. fold m. rewrite map_length, Lw. f_equal. rewrite lsum_nth, map_length, Lw. apply rsum_ext. intros j Hj.
    rewrite (nth_map_in _ _ j 0 0) by lia. rewrite Nw by exact Hj. apply Rabs_pos_eq. left. apply P. unfold m in *; lia. }
  rewrite EM, Lw. rewrite (proj2 (Nat.eqb_neq m 0)) by lia. set (r := reference_level bins i (fun k => nth k s 0)).
  assert (Pr : 0 < r).
  { unfold r, reference_level. fold m. apply Rdiv_lt_0_compat; [|apply lt_0_INR; lia].
    apply (Rlt_le_trans _ (nth (i - 5 + 0) s 0)); [apply P; lia|]. destruct m as [|m']; [lia|]. rewrite rsum_shift.
    assert (Q : 0 <= rsum m' (fun j => nth (i - 5 + S j) s 0)). { apply rsum_nonneg. intros j Hj. destruct (Nat.lt_ge_cases (i - 5 + S j) bins); [left; apply P; lia|]. rewrite nth_overflow by lia. lra. }
    lra. }
  unfold Reqb at 1. destruct (Req_EM_T r 0); [lra|].
  assert (EX : existsb (fun x => Reqb x 0) s = false).
  { destruct (existsb (fun x => Reqb x 0) s) eqn:T; [|reflexivity]. apply existsb_exists in T. destruct T as (x & Hx & Rx). destruct (In_nth _ _ 0 Hx) as (k & Hk & Ek).
    unfold Reqb in Rx. destruct (Req_EM_T x 0); [|discriminate]. specialize (P k ltac:(lia)). lra. }
  rewrite EX. eexists. split; [reflexivity|]. split; [rewrite map_length, combine_length; lia|].
  intros k Hk. rewrite (nth_map_in _ _ k 0 (0, 0)) by (rewrite combine_length; lia). rewrite combine_nth by lia. cbn [fst snd]. rewrite F by exact Hk. unfold correction. fold r.
  specialize (P k Hk). field. split; lra.
Qed.
Lemma taps_ok minph (mp : bool) taps inv H : (1 <= taps)%nat -> length inv = (8 * taps + 1)%nat -> (forall k, (k < 8 * taps + 1)%nat -> nth k inv 0 = H k) ->
  if mp then minimum_eq minph taps H (ctf_taps minph mp taps inv) else linear_eq taps H (ctf_taps minph mp taps inv).
Proof.
  intros Ht L E. destruct mp; unfold ctf_taps.
  - set (X := map (fun y => (y ^ 2, 0)) inv). assert (LX : (@length C2 X - 1 = 8 * taps)%nat) by (unfold X; unfold C2 in *; rewrite map_length; lia).
    assert (Lh : length (irfft X) = (16 * taps)%nat) by (rewrite length_irfft, LX; lia).
    exists (np_roll (irfft X) (8 * taps)). split; [unfold np_roll; rewrite map_length, seq_length; exact Lh|]. split.
    + intros t T. rewrite nth_roll by lia. rewrite Lh. replace (16 * taps - 8 * taps)%nat with (8 * taps)%nat by lia.
      assert ((t + 8 * taps) mod (16 * taps) < 16 * taps)%nat by (apply Nat.mod_upper_bound; lia).
      rewrite nth_irfft by lia. rewrite LX. apply synth_ext; [lia|]. intros k Hk. unfold X. rewrite (nth_map_in _ inv k (0, 0) 0) by lia. rewrite E by lia. reflexivity.
    + rewrite Lh. replace (16 * taps / 2)%nat with (8 * taps)%nat by (replace (16 * taps)%nat with (8 * taps * 2)%nat by lia; rewrite Nat.div_mul; lia).
      unfold slice_to. set (y := minph _). unfold norm_idx. destruct (Z.ltb_spec (Z.of_nat taps) 0); [lia|].
      destruct (Nat.le_gt_cases taps (length y)); [f_equal; lia|]. rewrite !firstn_all2 by lia. reflexivity.
  - set (X := map (fun y => (y, 0)) inv). assert (LX : (@length C2 X - 1 = 8 * taps)%nat) by (unfold X; unfold C2 in *; rewrite map_length; lia).
    assert (Lh : length (irfft X) = (16 * taps)%nat) by (rewrite length_irfft, LX; lia).
    assert (Lr : length (np_roll (irfft X) (taps / 2 + 1)) = (16 * taps)%nat) by (unfold np_roll; rewrite map_length, seq_length; exact Lh).
    assert (Ls : length (slice_to (np_roll (irfft X) (taps / 2 + 1)) (Z.of_nat taps)) = taps) by (rewrite length_slice_to, Lr; lia).
    pose proof (length_hann1 taps Ht) as LH. assert (D2 : (taps / 2 <= taps)%nat) by (apply Nat.div_le_upper_bound; lia).
    split; [unfold zip_mul; rewrite map_length, combine_length; lia|].
    intros t T. unfold zip_mul. rewrite (nth_map_in _ _ t 0 (0, 0)) by (rewrite combine_length; lia). rewrite combine_nth by lia. cbn [fst snd]. rewrite nth_hann_one by exact T. f_equal.
    rewrite nth_slice_to by (rewrite Lr; lia). rewrite nth_roll by lia. rewrite Lh.
    assert ((t + (16 * taps - (taps / 2 + 1))) mod (16 * taps) < 16 * taps)%nat by (apply Nat.mod_upper_bound; lia).
    rewrite nth_irfft by lia. rewrite LX. apply synth_ext; [lia|]. intros k Hk. unfold X. rewrite (nth_map_in _ inv k (0, 0) 0) by lia. rewrite E by lia. reflexivity.
Qed.
