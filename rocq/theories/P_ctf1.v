(** hrirs_ctf: exact smoothing, levels, weights of the inversion. *)
From Verif Require Import Base BaseFacts M_utils M_sig M_process M_sph M_grids M_parsa2 M_parsa3 M_decoder4 M_process2 S_process S_magls S_ctf P_utils P_sig P_parsa3 P_parsa9 P_sph6 P_sph7 P_proc2 P_proc5 P_magls1 P_magls2 P_magls3 X_process.
Open Scope R_scope.

Lemma nth_smooth_win wt (M : nat) j : (j < M)%nat -> nth j (smooth_win wt (Z.of_nat M)) 0 = window_value wt M j.
Proof.
  intros Hj. unfold smooth_win, window_value. destruct wt; cbn [negb orb].
  - unfold hamming. destruct (Z.ltb_spec (Z.of_nat M) 1); [lia|]. destruct (Nat.eqb_spec M 1) as [->|NE].
    + change (Z.of_nat 1) with 1%Z. rewrite Z.eqb_refl. assert (j = 0)%nat as -> by lia. reflexivity.
    + rewrite (proj2 (Z.eqb_neq (Z.of_nat M) 1)) by lia. rewrite Nat2Z.id, (nth_map_seq' _ M j) by exact Hj.
      rewrite plus_IZR, minus_IZR, mult_IZR, minus_IZR, <- !INR_IZR_INZ.
      assert (INR M - 1 <> 0). { intros E. apply NE. apply INR_eq. change (INR 1) with 1. lra. }
      replace (PI * (1 - INR M + 2 * INR j) / (INR M - 1)) with (- (PI - 2 * PI * INR j / (INR M - 1))) by (field; assumption).
      rewrite cos_neg, Rtrigo_facts.cos_pi_minus. ring.
  - rewrite Nat2Z.id. clear -Hj. revert j Hj. induction M; intros [|j] Hj; cbn [repeat nth]; try lia; auto. apply IHM. lia.
Qed.
Lemma octave_ok (a : list R) n wt : 0 < n ->
  exists out, frac_octave_smoothing (arr1 a) n wt = Ok (map Some out) /\ length out = length a /\
    forall idx, (idx < length a)%nat -> octave_mean wt n (length a) (fun k => nth k a 0) idx (nth idx out 0).
Proof.
  intros Hn. unfold frac_octave_smoothing, arr1.
  unfold Reqb at 1. destruct (Req_EM_T n 0); [lra|].
  assert (E1 : exists b, asarray_1d (Nd [length a] a) = Ok b /\ data b = a).
  { unfold asarray_1d, squeeze. cbn [shape filter data].
    destruct (Nat.eqb (length a) 1); cbn [negb length Nat.eqb Nat.ltb Nat.leb]; eexists; split; reflexivity. }
  destruct E1 as (b & -> & Eb). cbn [bind]. rewrite Eb.
  pose proof (smooth_factor_gt1 n Hn) as Hc. unfold octave_mean. change (half_step n) with (smooth_factor n).
  set (c := smooth_factor n) in *.
  destruct (X_process.mapM_exists (smooth_at a c wt) (seq 0 (length a))
    (fun idx o => exists v, o = Some v /\ exists lo M, (1 <= M)%nat /\ (lo + M <= length a)%nat /\
    (forall j, (j < length a)%nat -> (in_window c idx j <-> (lo <= j < lo + M)%nat)) /\
    v = rsum M (fun j => window_value wt M j * nth (lo + j)%nat a 0) / rsum M (window_value wt M))) as (r & E & F).
  { intros idx Hi. apply in_seq in Hi. assert (Hi' : (idx < length a)%nat) by lia.
    destruct (smooth_bounds c (length a) idx Hc Hi') as [[L0 L1] [H0 H1]].
    pose proof (fun j Hj => smooth_window_iff c (length a) idx j Hc Hi' Hj) as IFF.
    unfold smooth_at. set (lo := smooth_lo c idx) in *. set (hi := smooth_hi c (length a) idx) in *.
    set (M := (Z.to_nat hi - Z.to_nat lo)%nat). assert (EM : (hi - lo = Z.of_nat M)%Z) by (unfold M; lia). rewrite EM.
    set (win := smooth_win wt (Z.of_nat M)).
    assert (Lw : length win = M) by (unfold win; rewrite length_smooth_win by (unfold M; lia); lia).
    assert (Ls : length (slice a lo hi) = length win) by (rewrite length_slice, !norm_idx_nonneg by lia; unfold M in *; lia).
    assert (Ps : 0 < lsum win).
    { apply lsum_pos; [|intros x; apply smooth_win_pos]. intros Q. rewrite Q in Lw. cbn in Lw. unfold M in *; lia. }
    assert (SW : lsum win = rsum M (window_value wt M)).
    { rewrite lsum_nth, Lw. apply rsum_ext. intros j Hj. apply nth_smooth_win. exact Hj. }
    unfold mul_arrays. rewrite Ls, Nat.eqb_refl. cbn [bind].
    replace (Reqb (lsum win) 0) with false by (symmetry; apply Reqb_false; lra).
    eexists. split; [reflexivity|]. eexists. split; [reflexivity|]. exists (Z.to_nat lo), M. split; [unfold M; lia|]. split; [unfold M; lia|]. split.
    - intros j Hj. transitivity (lo <= Z.of_nat j < hi)%Z; [|unfold M; lia]. rewrite IFF by exact Hj. unfold in_window.
      destruct idx as [|idx']; cbn [Nat.eqb]; [reflexivity|]. split; intros [A B]; split; lra.
    - rewrite lsum_zip_mul by auto. rewrite SW. rewrite Lw. unfold Rdiv. rewrite Rmult_1_l, Rmult_comm. f_equal. apply rsum_ext. intros j Hj.
      rewrite nth_slice by (rewrite !norm_idx_nonneg by lia; unfold M in *; lia). rewrite norm_idx_nonneg by lia. unfold win. rewrite nth_smooth_win by exact Hj. reflexivity. }
  destruct (Forall2_seq _ _ _ None F) as [Lr N].
  exists (map (fun o => match o with Some v => v | None => 0 end) r).
  split; [rewrite E; f_equal; rewrite map_map|split].
  - rewrite <- (map_id r) at 1. apply map_ext_in. intros o Ho. destruct (In_nth _ _ None Ho) as (i & Hi & Ei).
    destruct (N i ltac:(lia)) as (v & Ev & _). rewrite Ei in Ev. rewrite Ev. reflexivity.
  - rewrite map_length. auto.
  - intros idx Hi. rewrite (nth_map_in _ r idx 0 None) by lia.
    destruct (N idx Hi) as (v & -> & A). exact A.
Qed.
Lemma window_sum_pos wt M : (1 <= M)%nat -> 0 < rsum M (window_value wt M).
Proof.
  intros HM. assert (L : length (smooth_win wt (Z.of_nat M)) = M) by (rewrite length_smooth_win by lia; lia).
  rewrite (rsum_ext M _ (fun j => nth j (smooth_win wt (Z.of_nat M)) 0)) by (intros j Hj; symmetry; apply nth_smooth_win; exact Hj).
  rewrite <- L at 1. rewrite <- lsum_nth. apply lsum_pos; [|intros x; apply smooth_win_pos]. intros Q. rewrite Q in L. cbn in L. lia.
Qed.
Lemma window_pos wt M j : (j < M)%nat -> 0 < window_value wt M j.
Proof.
  intros Hj. rewrite <- nth_smooth_win by exact Hj. apply (smooth_win_pos wt (Z.of_nat M)). apply nth_In. rewrite length_smooth_win by lia. lia.
Qed.
(** consequences of the specification *)
Lemma octave_unique wt n N a b idx v u : (idx < N)%nat -> 0 < n -> (forall k, (k < N)%nat -> a k = b k) -> octave_mean wt n N a idx v -> octave_mean wt n N b idx u -> v = u.
Proof.
  intros Hi Hn AB (lo & M & HM & HL & W & ->) (lo' & M' & HM' & HL' & W' & ->).
  assert (A : forall j, (j < N)%nat -> ((lo <= j < lo + M)%nat <-> (lo' <= j < lo' + M')%nat)) by (intros j Hj; rewrite <- W, <- W' by exact Hj; reflexivity).
  assert (lo = lo') by (pose proof (proj1 (A lo ltac:(lia))); pose proof (proj2 (A lo' ltac:(lia))); lia). subst lo'.
  assert (M = M') by (pose proof (proj1 (A (lo + M - 1)%nat ltac:(lia))); pose proof (proj2 (A (lo + M' - 1)%nat ltac:(lia))); lia). subst M'.
  f_equal. apply rsum_ext. intros j Hj. rewrite AB by lia. reflexivity.
Qed.
Lemma octave_scal wt n N a c idx v : octave_mean wt n N a idx v -> octave_mean wt n N (fun k => c * a k) idx (c * v).
Proof.
  intros (lo & M & HM & HL & W & ->). exists lo, M. do 3 (split; [assumption|]). unfold Rdiv. rewrite <- Rmult_assoc. f_equal. rewrite <- rsum_scal. apply rsum_ext. intros j Hj. ring.
Qed.
Lemma octave_const wt n N a c idx v : (forall k, (k < N)%nat -> a k = c) -> octave_mean wt n N a idx v -> v = c.
Proof.
  intros A (lo & M & HM & HL & W & ->). pose proof (window_sum_pos wt M HM).
  rewrite (rsum_ext M _ (fun j => c * window_value wt M j)) by (intros j Hj; rewrite A by lia; ring). rewrite rsum_scal. field. lra.
Qed.
Lemma octave_nonneg wt n N a idx v : (forall k, (k < N)%nat -> 0 <= a k) -> octave_mean wt n N a idx v -> 0 <= v.
Proof.
  intros A (lo & M & HM & HL & W & ->). pose proof (window_sum_pos wt M HM). apply Rmult_le_pos; [|left; apply Rinv_0_lt_compat; assumption].
  apply rsum_nonneg. intros j Hj. apply Rmult_le_pos; [left; apply window_pos; exact Hj|apply A; lia].
Qed.
Lemma octave_pos wt n N a idx v : (idx < N)%nat -> in_window (half_step n) idx idx -> (forall k, (k < N)%nat -> 0 <= a k) -> 0 < a idx -> octave_mean wt n N a idx v -> 0 < v.
Proof.
  intros Hi IW A P (lo & M & HM & HL & W & ->). pose proof (window_sum_pos wt M HM). apply Rdiv_lt_0_compat; [|assumption].
  apply W in IW; [|exact Hi]. 
  assert (NN : forall j, (j < M)%nat -> 0 <= window_value wt M j * a (lo + j)%nat) by (intros j Hj; apply Rmult_le_pos; [left; apply window_pos; exact Hj|apply A; lia]).
  destruct (Rle_lt_or_eq_dec 0 _ (rsum_nonneg M _ NN)) as [Q|Q]; [exact Q|exfalso].
  pose proof (rsum_nonneg_0 M _ NN (eq_sym Q) (idx - lo)%nat ltac:(lia)) as Z0. cbn beta in Z0. replace (lo + (idx - lo))%nat with idx in Z0 by lia.
  pose proof (window_pos wt M (idx - lo) ltac:(lia)). nra.
Qed.
