(** Second post equalization: gains, filtering, smoothing of one block. *)
From Verif Require Import Base BaseFacts M_utils M_sig M_process M_decoder M_decoder3 M_parsa2 M_parsa3
  S_process S_decoder3 S_parsa2 S_parsa3 P_sig P_dec13 P_parsa3 P_parsa7 P_parsa8 P_parsa9 P_parsa10 P_parsa11 P_parsa13 P_parsa14 P_parsa15.
Open Scope R_scope.

(** ** Spectra *)
Lemma length_rfft x : (2 <= length x)%nat -> length (rfft x) = (length x / 2 + 1)%nat.
Proof.
  intros H. unfold rfft. rewrite firstn_length, length_fft. apply Nat.min_l.
  pose proof (Nat.div_mod (length x) 2 ltac:(lia)). pose proof (Nat.mod_upper_bound (length x) 2 ltac:(lia)). lia.
Qed.
Lemma nth_rfft x k d : (k < length x / 2 + 1)%nat -> nth k (rfft x) d = nth k (fft x (length x)) d.
Proof. intros H. unfold rfft. apply nth_firstn. exact H. Qed.

(** ** Levels *)
Lemma level_factor fs w (g : list R) (m : list R) n f : 0 < w -> (0 < fs)%Z -> length g = n -> length m = n ->
  (forall k, (k < n)%nat -> nth k m 0 = f k) ->
  subband_level fs w (zip_mul g m) = sqrt (1 / w * IZR fs / 2) * band_level n g f.
Proof.
  intros W Hf Lg Lm N. unfold subband_level, band_level. apply IZR_lt in Hf.
  assert (0 <= 1 / w * IZR fs / 2) as C.
  { assert (0 < 1 / w * IZR fs); [|lra]. apply Rmult_lt_0_compat; [apply Rdiv_lt_0_compat; lra|exact Hf]. }
  rewrite <- sqrt_mult_alt by exact C. f_equal. f_equal. rewrite (lsum_map_nth 0), length_zip_mul by lia. rewrite Lg.
  apply rsum_ext. intros k K. rewrite nth_zip_mul by lia. rewrite N by exact K. rewrite pow2_abs. unfold Rsqr. ring.
Qed.
Lemma band_level_nonneg n g m : 0 <= band_level n g m.
Proof. apply sqrt_pos. Qed.
Lemma clipped_ratio c A B : 0 < c -> clipped_gain (c * A) (c * B) = ratio_gain A B.
Proof.
  intros C. unfold clipped_gain, ratio_gain. destruct (Req_EM_T B 0) as [->|N].
  - rewrite Rmult_0_r. rewrite (proj2 (Reqb_true 0 0) eq_refl). reflexivity.
  - rewrite (proj2 (Reqb_false _ _)) by (intro E; apply Rmult_integral in E; destruct E; lra).
    replace (c * A / (c * B)) with (A / B) by (field; split; lra). destruct (Rle_dec (A / B) 1); [apply Rmin_left; assumption|apply Rmin_right; lra].
Qed.
Lemma ratio_range lp ls : 0 <= lp -> 0 <= ls -> 0 <= ratio_gain lp ls <= 1.
Proof.
  intros P Q. unfold ratio_gain. destruct (Req_EM_T ls 0) as [E|N]; [lra|].
  assert (0 <= lp / ls) by (apply Rmult_le_pos; [exact P|left; apply Rinv_0_lt_compat; lra]).
  destruct (Rle_dec (lp / ls) 1); lra.
Qed.
Lemma share_range b : 0 <= share b <= 1.
Proof. destruct b as [|[|[|b]]]; cbn [share]; lra. Qed.
Lemma eq2_gain_range b g bs L att p x s : 0 <= eq2_gain b g bs L att p x s <= 1.
Proof.
  unfold eq2_gain. cbv zeta. pose proof (share_range b).
  match goal with |- 0 <= share b * ratio_gain ?A ?B + (1 - share b) * ratio_gain ?A ?C <= 1 =>
    pose proof (ratio_range A B (band_level_nonneg _ _ _) (band_level_nonneg _ _ _));
    pose proof (ratio_range A C (band_level_nonneg _ _ _) (band_level_nonneg _ _ _)) end. nra.
Qed.
Lemma nth_mixed coh inc gains b : mixed_gains coh inc = Ok gains -> length coh = length inc ->
  length gains = length inc /\ ((b < length inc)%nat -> nth b gains 0 = share b * nth b coh 0 + (1 - share b) * nth b inc 0).
Proof.
  unfold mixed_gains. destruct coh as [|c0 [|c1 [|c2 t]]]; try discriminate. destruct inc as [|i0 [|i1 [|i2 t']]]; try discriminate.
  intros [= <-] L. split; [reflexivity|]. intros B. destruct b as [|[|[|b]]]; cbn [nth share]; lra.
Qed.
Lemma mixed_ok coh inc : (3 <= length inc)%nat -> length coh = length inc -> exists g, mixed_gains coh inc = Ok g.
Proof.
  intros H E. destruct coh as [|c0 [|c1 [|c2 t]]]; destruct inc as [|i0 [|i1 [|i2 t']]]; cbn in *; try lia. eexists. reflexivity.
Qed.

Section Gains.
Variables (fs : Z) (gs : list (list R)) (widths att : list R) (h : nat) (p : list R) (rws : list (list R)) (s : Z).
Variables (bp : list R) (bx : list (list R)).
Let bs := (2 * h)%nat.
Let n := (bs / 2 + 1)%nat.
Let x l := nth l rws [].
Let at_ l := nth l att 0.
Hypothesis Hh : (1 <= h)%nat.
Hypothesis Hf : (0 < fs)%Z.
Hypothesis Hg : forall b, (b < length gs)%nat -> length (nth b gs []) = n.
Hypothesis Hw : length widths = length gs.
Hypothesis Hw0 : forall b, (b < length gs)%nat -> 0 < nth b widths 0.
Hypothesis H3 : (3 <= length gs)%nat.
Hypothesis Ha : length att = length rws.
Hypothesis Ha0 : forall l, 0 <= nth l att 0.
Hypothesis Hp : length bp = bs /\ forall j, (j < bs)%nat -> nth j bp 0 = block bs p s j.
Hypothesis Hx : length bx = length rws.
Hypothesis Hx0 : forall l, (l < length rws)%nat -> length (nth l bx []) = bs /\ forall j, (j < bs)%nat -> nth j (nth l bx []) 0 = block bs (x l) s j.

Lemma bins_lt : (n <= bs)%nat.
Proof. unfold n, bs. rewrite Nat.mul_comm, Nat.div_mul by lia. lia. Qed.
Lemma levels_ok (m : list R) f : length m = n -> (forall k, (k < n)%nat -> nth k m 0 = f k) ->
  exists lv, subband_levels fs widths gs m = Ok lv /\ length lv = length gs /\
    forall b, (b < length gs)%nat -> nth b lv 0 = sqrt (1 / nth b widths 0 * IZR fs / 2) * band_level n (nth b gs []) f.
Proof.
  intros Lm N. unfold subband_levels. rewrite (mapM_ok _ (fun g => zip_mul g m)).
  2:{ intros g I. destruct (In_nth _ _ [] I) as (b & B & <-). apply bmul_same. rewrite Hg by exact B. auto. }
  cbn [bind]. eexists. split; [reflexivity|]. rewrite map_length, combine_length, map_length. split; [lia|].
  intros b B. rewrite (nth_map_in _ _ _ _ (0, [])) by (rewrite combine_length, map_length; lia).
  rewrite nth_combine by (rewrite map_length; exact Hw). cbn [fst snd]. rewrite (nth_map_in _ _ _ _ []) by exact B.
  apply level_factor; auto.
Qed.
Lemma block_gains_ok : exists gains, block_gains fs gs widths att bp bx = Ok gains /\ length gains = length gs /\
  forall b, (b < length gs)%nat -> nth b gains 0 = eq2_gain b (nth b gs []) bs (length rws) at_ p x s.
Proof.
  pose proof bins_lt as Bl. assert (2 <= bs)%nat as B2 by (unfold bs; lia). destruct Hp as [Lp Np].
  unfold block_gains. set (pm := map _ (rfft bp)).
  assert (length pm = n) as Lpm by (unfold pm; rewrite map_length, length_rfft by lia; rewrite Lp; reflexivity).
  assert (forall k, (k < n)%nat -> nth k pm 0 = magnitude bs bs (block bs p s) k) as Npm.
  { intros k K. unfold pm. rewrite (nth_map_in _ _ _ _ (0, 0)) by (rewrite length_rfft by lia; rewrite Lp; exact K).
    rewrite nth_rfft by (rewrite Lp; exact K). rewrite Lp, (cabs_fft bp bs bs (block bs p s)) by (auto; lia).
    rewrite <- Rsqr_pow2, sqrt_Rsqr by apply magnitude_nonneg. reflexivity. }
  unfold origin_mags. rewrite map_length, Ha, Hx, Nat.eqb_refl. cbn [bind]. set (o := map _ (combine att _)).
  assert (length o = length rws) as Lo by (unfold o; rewrite map_length, combine_length, map_length; lia).
  assert (forall l k, (l < length rws)%nat -> (k < n)%nat -> nth k (nth l o []) 0 = at_ l * magnitude bs bs (block bs (x l) s) k) as No.
  { intros l k L K. destruct (Hx0 l L) as [X1 X2]. unfold o. rewrite (nth_map_in _ _ _ _ (0, [])) by (rewrite combine_length, map_length; lia).
    rewrite nth_combine by (rewrite map_length; lia). cbn [fst snd]. rewrite (nth_map_in rfft _ _ _ []) by lia.
    rewrite (nth_map_in _ _ _ _ (0, 0)) by (rewrite length_rfft by lia; rewrite X1; exact K).
    rewrite nth_rfft by (rewrite X1; exact K). rewrite X1, cabs_scal by apply Ha0.
    rewrite (cabs_fft _ bs bs (block bs (x l) s)) by (auto; lia). reflexivity. }
  rewrite Lpm.
  destruct (levels_ok pm (magnitude bs bs (block bs p s)) Lpm Npm) as (lp & Ep & Llp & Nlp). rewrite Ep. cbn [bind].
  destruct (levels_ok (map (incoherent o) (seq 0 n)) (fun k => in_power (length rws) at_ (fun l => magnitude bs bs (block bs (x l) s) k))) as (li & Ei & Lli & Nli).
  { rewrite map_length, seq_length. reflexivity. }
  { intros k K. rewrite nth_map_seq by exact K. unfold incoherent, in_power. f_equal. rewrite (lsum_map_nth []), Lo. apply rsum_ext. intros l L. rewrite No by assumption. unfold Rsqr. ring. }
  rewrite Ei. cbn [bind].
  destruct (levels_ok (map (coherent o) (seq 0 n)) (fun k => together (length rws) at_ (fun l => magnitude bs bs (block bs (x l) s) k))) as (lc & Ec & Llc & Nlc).
  { rewrite map_length, seq_length. reflexivity. }
  { intros k K. rewrite nth_map_seq by exact K. unfold coherent, together. rewrite (lsum_map_nth []), Lo. apply rsum_ext. intros l L. apply No; assumption. }
  rewrite Ec. cbn [bind].
  set (gc := map _ (combine lp lc)). set (gi := map _ (combine lp li)).
  assert (length gc = length gs) as Lgc by (unfold gc; rewrite map_length, combine_length; lia).
  assert (length gi = length gs) as Lgi by (unfold gi; rewrite map_length, combine_length; lia).
  destruct (mixed_ok gc gi ltac:(lia) ltac:(lia)) as (gains & Eg). exists gains. split; [exact Eg|].
  split; [destruct (nth_mixed gc gi gains 0 Eg ltac:(lia)); lia|]. intros b B. destruct (nth_mixed gc gi gains b Eg ltac:(lia)) as [_ Q].
  rewrite Q by lia. unfold eq2_gain. cbv zeta. fold n.
  assert (0 < sqrt (1 / nth b widths 0 * IZR fs / 2)) as C.
  { apply sqrt_lt_R0. pose proof (IZR_lt 0 fs Hf). assert (0 < 1 / nth b widths 0 * IZR fs); [|lra]. apply Rmult_lt_0_compat; [apply Rdiv_lt_0_compat; [lra|apply Hw0; exact B]|assumption]. }
  unfold gc, gi. rewrite !(nth_map_in _ _ _ _ (0, 0)) by (rewrite combine_length; lia). rewrite !nth_combine by lia. cbn [fst snd].
  rewrite Nlp, Nlc, Nli by exact B. rewrite !clipped_ratio by exact C. reflexivity.
Qed.
End Gains.

(** ** Filtering forwards and backwards *)
Lemma conv_at a w v (m : nat) : v = Z.of_nat m -> nth m (convolve a w) 0 = rsum (length w) (fun r => nth r w 0 * sig_at a (v - Z.of_nat r)).
Proof.
  intros ->. rewrite nth_convolve. unfold conv_sum. rewrite rsum_swap. apply rsum_ext. intros r R0. unfold sig_at.
  destruct (Z.leb_spec 0 (Z.of_nat m - Z.of_nat r)) as [A|A].
  - replace (Z.to_nat (Z.of_nat m - Z.of_nat r)) with (m - r)%nat by lia.
    destruct (Nat.lt_ge_cases (m - r) (length a)) as [C|C].
    + rewrite (rsum_single _ (m - r)%nat); [|exact C|].
      * rewrite (proj2 (Nat.eqb_eq _ _)) by lia. ring.
      * intros i I N. destruct (Nat.eqb_spec (i + r) m); [lia|reflexivity].
    + rewrite (nth_overflow a) by exact C. rewrite Rmult_0_r. apply rsum_0. intros i I. destruct (Nat.eqb_spec (i + r) m); [lia|reflexivity].
  - rewrite Rmult_0_r. apply rsum_0. intros i I. destruct (Nat.eqb_spec (i + r) m); [lia|reflexivity].
Qed.
Lemma conv_sig a w v : a <> [] -> w <> [] -> sig_at (convolve a w) v = rsum (length w) (fun r => nth r w 0 * sig_at a (v - Z.of_nat r)).
Proof.
  intros Na Nw. unfold sig_at at 1. destruct (Z.leb_spec 0 v) as [A|A].
  - apply conv_at. lia.
  - symmetry. apply rsum_0. intros r R0. unfold sig_at. destruct (Z.leb_spec 0 (v - Z.of_nat r)); [lia|ring].
Qed.
Lemma sig_rev a v : sig_at (rev a) v = sig_at a (Z.of_nat (length a) - 1 - v).
Proof.
  unfold sig_at. destruct (Z.leb_spec 0 v) as [A|A].
  - destruct (Nat.lt_ge_cases (Z.to_nat v) (length a)) as [C|C].
    + rewrite rev_nth by exact C. destruct (Z.leb_spec 0 (Z.of_nat (length a) - 1 - v)); [|lia]. f_equal. lia.
    + rewrite nth_overflow by (rewrite rev_length; exact C). destruct (Z.leb_spec 0 (Z.of_nat (length a) - 1 - v)); [lia|reflexivity].
  - destruct (Z.leb_spec 0 (Z.of_nat (length a) - 1 - v)); [|reflexivity]. rewrite nth_overflow by lia. reflexivity.
Qed.
Lemma sig_scal c a v : sig_at (map (fun y => c * y) a) v = c * sig_at a v.
Proof.
  apply sig_at_scal; rewrite map_length; [reflexivity|]. intros u U. apply (nth_map_in _ _ _ _ 0). exact U.
Qed.
Lemma twice_scal w c f v : twice w (fun u => c * f u) v = c * twice w f v.
Proof.
  unfold twice. rewrite <- rsum_scal. apply rsum_ext. intros t T. rewrite <- !rsum_scal. apply rsum_ext. intros r R0. ring.
Qed.
Lemma filtered_ok bs blk g w e : length blk = bs -> (1 <= bs)%nat -> length w = (e + 1)%nat ->
  length (filtered_twice bs blk (g, w)) = (bs + 2 * e)%nat /\
  forall t, (t < bs + 2 * e)%nat -> nth t (filtered_twice bs blk (g, w)) 0 = g * twice w (sig_at blk) (Z.of_nat t - Z.of_nat e).
Proof.
  intros Lb B Lw. unfold filtered_twice. cbn [fst snd].
  assert (blk <> []) as N1 by (destruct blk; [cbn in Lb; lia|discriminate]). assert (w <> []) as N2 by (destruct w; [cbn in Lw; lia|discriminate]).
  set (y := convolve blk w). assert (length y = (bs + e)%nat) as Ly by (unfold y; rewrite length_conv_nonempty by assumption; lia).
  set (z := map (fun v => g * v) y). assert (length z = (bs + e)%nat) as Lz by (unfold z; rewrite map_length; exact Ly).
  assert (rev z <> []) as N3 by (intro E; apply (f_equal (@length R)) in E; rewrite rev_length in E; cbn in E; lia).
  set (c := convolve (rev z) w). assert (length c = (bs + 2 * e)%nat) as Lc by (unfold c; rewrite length_conv_nonempty by assumption; rewrite rev_length; lia).
  split; [rewrite rev_length; exact Lc|]. intros t T.
  assert (nth t (rev c) 0 = sig_at (rev c) (Z.of_nat t)) as ->.
  { unfold sig_at. destruct (Z.leb_spec 0 (Z.of_nat t)); [|lia]. rewrite Nat2Z.id. reflexivity. }
  rewrite sig_rev, Lc. unfold c. rewrite conv_sig by assumption. unfold twice. rewrite <- rsum_scal. rewrite Lw. apply rsum_ext. intros r R0.
  rewrite sig_rev, Lz. unfold z. rewrite sig_scal. unfold y. rewrite conv_sig by assumption. rewrite Lw.
  transitivity (g * (nth r w 0 * rsum (e + 1) (fun r0 => nth r0 w 0 * sig_at blk (Z.of_nat t - Z.of_nat e + Z.of_nat r - Z.of_nat r0)))); [|reflexivity].
  transitivity (nth r w 0 * (g * rsum (e + 1) (fun r0 => nth r0 w 0 * sig_at blk (Z.of_nat t - Z.of_nat e + Z.of_nat r - Z.of_nat r0)))); [|ring].
  f_equal. f_equal. apply rsum_ext. intros r1 R1. f_equal. f_equal. lia.
Qed.
Lemma block_output_ok bs irs gains blk e : (1 <= bs)%nat -> length blk = bs -> (1 <= length irs)%nat -> length gains = length irs ->
  (forall b, (b < length irs)%nat -> length (nth b irs []) = (e + 1)%nat) ->
  length (block_output bs irs gains blk) = (bs + 2 * e)%nat /\
  forall t, (t < bs + 2 * e)%nat -> nth t (block_output bs irs gains blk) 0 =
    rsum (length irs) (fun b => nth b gains 0 * twice (nth b irs []) (sig_at blk) (Z.of_nat t - Z.of_nat e)).
Proof.
  intros B Lb L1 Lg Li. unfold block_output. rewrite (Li 0%nat) by lia. replace (bs + 2 * (e + 1 - 1))%nat with (bs + 2 * e)%nat by lia.
  split; [rewrite map_length, seq_length; reflexivity|]. intros t T. rewrite nth_map_seq by exact T.
  rewrite (lsum_map_nth []), map_length, combine_length, Lg, Nat.min_id. apply rsum_ext. intros b Hb.
  rewrite (nth_map_in _ _ _ _ (0, [])) by (rewrite combine_length; lia). rewrite nth_combine by exact Lg. apply filtered_ok; auto.
Qed.

(** ** Smoothing *)
Lemma hanning_at k m : (1 <= k)%nat -> (m < k)%nat -> nth m (slice (np_hanning (Z.of_nat k * 2 + 1)) (- (Z.of_nat k + 1)) (-1)) 0 = hann (2 * k + 1) (k + m) /\
  length (slice (np_hanning (Z.of_nat k * 2 + 1)) (- (Z.of_nat k + 1)) (-1)) = k.
Proof.
  intros K M. replace (Z.of_nat k * 2 + 1)%Z with (odd k) by (unfold odd; lia).
  assert (norm_idx (2 * k + 1) (- (Z.of_nat k + 1)) = k) as A by (unfold norm_idx; destruct (Z.ltb_spec (- (Z.of_nat k + 1)) 0); lia).
  assert (norm_idx (2 * k + 1) (-1) = 2 * k)%nat as C by (unfold norm_idx; cbn [Z.ltb Z.compare]; lia).
  rewrite length_slice, length_hanning, A, C. split; [|lia]. rewrite nth_slice by (rewrite length_hanning, A, C; lia). rewrite length_hanning, A. apply nth_hanning; lia.
Qed.
Lemma fall_total k : (1 <= k)%nat -> 0 < rsum k (fun m => hann (2 * k + 1) (k + m)).
Proof.
  intros K. destruct k as [|k]; [lia|]. rewrite rsum_shift. set (q := (S k)%nat).
  assert (hann (2 * q + 1) (q + 0) = 1) as ->.
  { unfold hann. rewrite Nat.add_0_r. replace (2 * q + 1 - 1)%nat with (2 * q)%nat by lia. rewrite mult_INR. change (INR 2) with 2.
    replace (PI * INR q / (2 * INR q)) with (PI / 2) by (field; apply not_0_INR; unfold q; lia). rewrite sin_PI2. unfold Rsqr. ring. }
  assert (0 <= rsum k (fun i => hann (2 * q + 1) (q + S i))) by (apply rsum_nonneg; intros; apply hann_nonneg). lra.
Qed.
Lemma fall_convex k : (1 <= k)%nat -> (forall m, 0 <= fall k m) /\ rsum k (fall k) = 1.
Proof.
  intros K. pose proof (fall_total k K) as T. split.
  - intros m. unfold fall. apply Rmult_le_pos; [apply hann_nonneg|left; apply Rinv_0_lt_compat; exact T].
  - unfold fall. unfold Rdiv. rewrite (rsum_ext k _ (fun m => / rsum k (fun m => hann (2 * k + 1) (k + m)) * hann (2 * k + 1) (k + m))) by (intros; ring).
    rewrite rsum_scal. field. lra.
Qed.
(** convex combinations stay in [0,1] *)
Lemma smoothing_range n order G Sm : (1 <= order)%nat -> (forall i, (i < n)%nat -> 0 <= G i <= 1) -> smoothing n order G Sm ->
  forall i, (i < n)%nat -> 0 <= Sm i <= 1.
Proof.
  intros O HG HS i. induction i as [i IH] using lt_wf_ind. intros Hi. pose proof (HS i Hi) as E. cbv zeta in E. rewrite E. destruct i as [|i]; [apply HG; exact Hi|].
  cbn [Nat.eqb]. set (k := Nat.min order (S i)). assert (1 <= k <= S i)%nat as K by (unfold k; lia). clearbody k. clear E.
  destruct (fall_convex k ltac:(lia)) as [F0 F1]. destruct k as [|k]; [lia|]. rewrite rsum_shift in F1. replace (S k - 1)%nat with k by lia.
  assert (forall m, (m < k)%nat -> 0 <= Sm (S i - (m + 1))%nat <= 1) as Q by (intros m M; apply IH; lia).
  assert (0 <= rsum k (fun m => fall (S k) (m + 1) * Sm (S i - (m + 1))%nat) <= rsum k (fun m => fall (S k) (S m))) as [A B].
  { split.
    - apply rsum_nonneg. intros m M. apply Rmult_le_pos; [apply F0|apply Q; exact M].
    - apply rsum_le. intros m M. replace (m + 1)%nat with (S m) by lia. pose proof (F0 (S m)). specialize (Q m M). replace (m + 1)%nat with (S m) in Q by lia. nra. }
  pose proof (F0 0%nat). specialize (HG (S i) Hi). split; [nra|]. assert (fall (S k) 0 * G (S i) <= fall (S k) 0) by nra. lra.
Qed.

(** ** One step of the smoothing *)
Lemma nth_iadd g v b : length v = length g -> exists r, iadd g v = Ok r /\ length r = length g /\ nth b r 0 = nth b g 0 + nth b v 0.
Proof.
  intros L. unfold iadd. rewrite L, Nat.eqb_refl. eexists. split; [reflexivity|]. rewrite map_length, combine_length, L, Nat.min_id. split; [reflexivity|].
  destruct (Nat.lt_ge_cases b (length g)) as [A|A].
  - rewrite (nth_map_in _ _ _ _ (0, 0)) by (rewrite combine_length; lia). rewrite nth_combine by lia. reflexivity.
  - rewrite !nth_overflow; [lra|lia|lia|rewrite map_length, combine_length; lia].
Qed.
Lemma smooth_fold w (hist : list (list R)) nb : (forall j, (j < length hist)%nat -> length (nth j hist []) = nb) -> forall j acc,
  (j < length w)%nat -> (j <= length hist)%nat -> length acc = nb ->
  exists r, fold_left (smooth_step w hist) (seq 1 j) (Ok acc) = Ok r /\ length r = nb /\
    forall b, nth b r 0 = nth b acc 0 + rsum j (fun m => nth (m + 1) w 0 * nth b (nth (length hist - (m + 1)) hist []) 0).
Proof.
  intros LH. induction j as [|j IH]; intros acc W Hj La.
  - exists acc. split; [reflexivity|]. split; [exact La|]. intros b. cbn [rsum]. lra.
  - rewrite seq_S, fold_left_app. destruct (IH acc ltac:(lia) ltac:(lia) La) as (r & E & Lr & N). rewrite E. cbn [fold_left Nat.add].
    unfold smooth_step. cbn [bind]. rewrite (index_ok w (Z.of_nat (S j)) 0) by lia. cbn [bind].
    rewrite (index_ok hist (- Z.of_nat (S j)) []) by lia. cbn [bind].
    replace (if (Z.of_nat (S j) <? 0)%Z then (Z.of_nat (S j) + Z.of_nat (length w))%Z else Z.of_nat (S j)) with (Z.of_nat (S j)) by (destruct (Z.ltb_spec (Z.of_nat (S j)) 0); lia).
    replace (if (- Z.of_nat (S j) <? 0)%Z then (- Z.of_nat (S j) + Z.of_nat (length hist))%Z else (- Z.of_nat (S j))%Z) with (Z.of_nat (length hist - S j)) by (destruct (Z.ltb_spec (- Z.of_nat (S j)) 0); lia).
    rewrite !Nat2Z.id. set (v := map _ _).
    assert (length v = length r) as Lv by (unfold v; rewrite map_length, LH by lia; auto).
    assert (forall b, nth b v 0 = nth (S j) w 0 * nth b (nth (length hist - S j) hist []) 0) as Nv.
    { intros b. unfold v. destruct (Nat.lt_ge_cases b nb) as [A|A].
      - apply (nth_map_in _ _ _ _ 0). rewrite LH by lia. exact A.
      - rewrite (nth_overflow (map _ _)) by (rewrite map_length, LH by lia; exact A). rewrite (nth_overflow (nth _ hist [])) by (rewrite LH by lia; exact A). ring. }
    destruct (nth_iadd r v 0 Lv) as (q & Eq & Lq & _). exists q. split; [exact Eq|]. split; [lia|].
    intros b. destruct (nth_iadd r v b Lv) as (q' & Eq' & _ & Nq). pose proof (eq_trans (eq_sym Eq) Eq') as X. injection X as <-.
    rewrite Nq, N, Nv. cbn [rsum]. replace (j + 1)%nat with (S j) by lia. ring.
Qed.
Lemma smooth_gains_ok (order : nat) (hist : list (list R)) g nb : (1 <= order)%nat -> length g = nb ->
  (forall j, (j < length hist)%nat -> length (nth j hist []) = nb) ->
  exists r, smooth_gains (Z.of_nat order) hist g = Ok r /\ length r = nb /\
    forall b, (b < nb)%nat -> nth b r 0 = if (length hist =? 0)%nat then nth b g 0
      else let k := Nat.min order (length hist) in
           fall k 0 * nth b g 0 + rsum (k - 1) (fun m => fall k (m + 1) * nth b (nth (length hist - (m + 1)) hist []) 0).
Proof.
  intros O Lg LH. unfold smooth_gains. destruct hist as [|h0 t] eqn:Eh.
  { exists g. split; [reflexivity|]. split; [exact Lg|]. intros b B. reflexivity. }
  rewrite <- Eh in *. assert (1 <= length hist)%nat as L1 by (rewrite Eh; cbn; lia). clear Eh h0 t.
  rewrite <- Nat2Z.inj_min. set (k := Nat.min order (length hist)). assert (1 <= k <= length hist)%nat as K by (unfold k; lia). clearbody k.
  set (w := slice _ _ _). assert (length w = k) as Lw by (apply (hanning_at k 0); lia).
  assert (forall m, (m < k)%nat -> nth m w 0 = hann (2 * k + 1) (k + m)) as Nw by (intros m M; apply hanning_at; lia).
  assert (lsum w = rsum k (fun m => hann (2 * k + 1) (k + m))) as Sw by (rewrite lsum_nth, Lw; apply rsum_ext; exact Nw).
  set (w' := map _ w). assert (length w' = k) as Lw' by (unfold w'; rewrite map_length; exact Lw).
  assert (forall m, (m < k)%nat -> nth m w' 0 = fall k m) as Nw'.
  { intros m M. unfold w'. rewrite (nth_map_in _ _ _ _ 0) by lia. rewrite Nw, Sw by exact M. reflexivity. }
  rewrite (index_ok w' 0 0) by lia. cbn [bind]. cbn [Z.ltb Z.compare Z.to_nat]. rewrite Nat2Z.id.
  destruct (smooth_fold w' hist nb LH (k - 1) (map (fun v => nth 0 w' 0 * v) g)) as (r & E & Lr & N); [lia|lia|rewrite map_length; exact Lg|].
  exists r. split; [exact E|]. split; [exact Lr|]. intros b B. destruct (Nat.eqb_spec (length hist) 0); [lia|]. cbv zeta.
  rewrite N, (nth_map_in _ _ _ _ 0) by lia. rewrite Nw' by lia. f_equal. apply rsum_ext. intros m M. rewrite Nw' by lia. reflexivity.
Qed.
Lemma smooth_gains_zero order hist g : (order <= 0)%Z -> hist <> [] -> smooth_gains order hist g = Err IndexError.
Proof.
  intros O H. unfold smooth_gains. destruct hist as [|h0 t]; [congruence|]. set (k := Z.min order _).
  assert (k <= 0)%Z as K by (unfold k; lia). clearbody k. set (w := slice _ _ _).
  assert (length w = 0)%nat as L.
  { unfold w, np_hanning. destruct (Z.ltb_spec (k * 2 + 1) 1); [reflexivity|]. assert (k = 0)%Z as -> by lia. reflexivity. }
  destruct w; [|discriminate]. cbn [map]. unfold index. cbn. reflexivity.
Qed.
