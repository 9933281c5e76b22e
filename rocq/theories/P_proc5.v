(** Proofs about process.py: filter bank errors and limits, pulsed noise, itds. *)
From Verif Require Import Base BaseFacts M_utils M_sig P_sig M_process S_process P_proc1 P_proc2 P_proc3 P_proc4.
Open Scope R_scope.

(** ** a transition beyond the last bin raises ValueError *)
Lemma slice_set_err {A} (l : list A) a b v : 
  (exists l', slice_set l a b v = Ok l') \/ slice_set l a b v = Err ValueError.
Proof.
  unfold slice_set. destruct (Nat.eqb _ _); [left; eauto|].
  destruct v as [|x [|y v]]; [right|left; eexists|right]; reflexivity.
Qed.

Lemma slice_set_short {A} (l : list A) (a b : nat) v : (length l < b)%nat -> (a < b)%nat ->
  (2 <= length v)%nat -> length v = (b - a)%nat ->
  slice_set l (Z.of_nat a) (Z.of_nat b) v = Err ValueError.
Proof.
  intros H1 H2 H3 H4. unfold slice_set.
  assert (Eb : norm_idx (length l) (Z.of_nat b) = length l).
  { unfold norm_idx. destruct (Z.ltb_spec (Z.of_nat b) 0); lia. }
  rewrite Eb.
  assert (Ea : (norm_idx (length l) (Z.of_nat a) = a \/
               norm_idx (length l) (Z.of_nat a) = length l)).
  { unfold norm_idx. destruct (Z.ltb_spec (Z.of_nat a) 0); lia. }
  destruct (Nat.eqb_spec (length v) (Nat.max (norm_idx (length l) (Z.of_nat a)) (length l) -
     norm_idx (length l) (Z.of_nat a))) as [E|E]; [lia|].
  destruct v as [|x [|y v]]; cbn in H3; try lia. reflexivity.
Qed.

Lemma fo_band_total l g i kp :
  (exists g', fo_band l g i kp = Ok g' /\ length g' = length g /\
     forall B, (forall r, (r < length g)%nat -> length (nth r g []) = B) ->
               forall r, (r < length g)%nat -> length (nth r g' []) = B) \/
  fo_band l g i kp = Err ValueError.
Proof.
  destruct kp as [k P]. unfold fo_band.
  destruct (slice_set_err (nth i g []) (k - P) (k + P + 1) (fo_b l P)) as [[r0 E0]|E0]; rewrite E0; cbn [bind]; [|auto].
  set (g1 := upd g i (fill_from r0 (k + P) 0)).
  destruct (slice_set_err (nth (S i) g1 []) (k - P) (k + P + 1) (fo_a l P)) as [[r1 E1]|E1]; rewrite E1; cbn [bind]; [|auto].
  left. eexists. split; [reflexivity|]. unfold g1 at 1. rewrite !length_upd. split; auto.
  intros B HB r Hr. apply length_slice_set in E0, E1.
  assert (H1 : forall r, (r < length g)%nat -> length (nth r g1 []) = B).
  { intros q Hq. unfold g1. destruct (Nat.eq_dec i q) as [->|N].
    - rewrite nth_upd_same by auto. rewrite length_fill_from, E0. auto.
    - rewrite nth_upd_other by auto. auto. }
  destruct (Nat.eq_dec (S i) r) as [Er|N]; [subst r|].
  - rewrite nth_upd_same by (unfold g1; rewrite length_upd; auto). rewrite length_fill_to, E1. apply H1. auto.
  - rewrite nth_upd_other by auto. auto.
Qed.

Lemma fo_bands_top l B kps : forall g m,
  (forall r, (r < length g)%nat -> length (nth r g []) = B) -> (m + length kps < length g)%nat ->
  (exists k P, In (k, P) kps /\ (1 <= P <= k)%nat /\ (B < k + P + 1)%nat) ->
  fo_bands l m (map zpair kps) g = Err ValueError.
Proof.
  induction kps as [|[k P] kps IH]; intros g m HB HL (k0 & P0 & Hin & HP & Hk); [destruct Hin|].
  cbn [map fo_bands]. destruct Hin as [E|Hin].
  - injection E as -> ->. unfold fo_band, zpair. cbn [fst snd].
    replace (Z.of_nat k0 - Z.of_nat P0)%Z with (Z.of_nat (k0 - P0)) by lia.
    replace (Z.of_nat k0 + Z.of_nat P0 + 1)%Z with (Z.of_nat (k0 + P0 + 1)) by lia.
    rewrite slice_set_short; [reflexivity| | | |]; rewrite ?length_fo_b; try lia.
    rewrite HB by (cbn in HL; lia). auto.
  - destruct (fo_band_total l g m (zpair (k, P))) as [(g' & E & L & W)|E]; rewrite E; cbn [bind]; auto.
    apply IH; [|cbn in HL; lia|eauto].
    rewrite L. apply W. auto.
Qed.

Lemma filterbank_top fuel n N_out fs f_low f_high mode overlap slope M k P :
  1 <= n -> (1 <= N_out)%nat -> (0 < fs)%Z -> 0 < f_low -> 0 <= overlap <= 1 / 2 ->
  band_count n f_low (eff_high fs f_high) M ->
  transitions N_out (IZR fs) n f_low overlap M k P ->
  (exists i, (i < M)%nat /\ (1 <= P i)%nat /\ (N_out <= k i + P i)%nat) ->
  frac_octave_filterbank fuel n N_out fs f_low f_high mode overlap slope = Err ValueError \/
  frac_octave_filterbank fuel n N_out fs f_low f_high mode overlap slope = Err OutOfFuel.
Proof.
  intros Hn HN Hfs Hf Ho HM HT (i & Hi & Pi & Ki).
  assert (Hfs' : 0 < IZR fs) by (apply IZR_lt; auto).
  unfold frac_octave_filterbank. fold (eff_high fs f_high).
  replace (Rleb overlap (1 / 2)) with true by (symmetry; apply Rleb_true; lra).
  cbn [assert_ bind]. destruct (fo_centres fuel n f_low (eff_high fs f_high)) as [fcs|e] eqn:Efc; cbn [bind].
  - left. pose proof (centres_value _ n f_low _ fcs M ltac:(lra) Hf Efc HM) as V. rewrite V.
    rewrite (transitions_kps N_out (IZR fs) n f_low overlap M k P ltac:(lra) HT).
    rewrite (fo_bands_top slope N_out); [reflexivity| | |].
    + intros r Hr. rewrite repeat_length in Hr. rewrite (nth_repeat_in (repeat 1 N_out)) by auto.
      apply repeat_length.
    + rewrite repeat_length, !map_length, !seq_length. lia.
    + exists (k i), (P i). split; [|split; [split; auto|lia]].
      * apply in_map_iff. exists i. split; auto. apply in_seq. lia.
      * apply (transitions_P_le_k N_out (IZR fs) n f_low overlap M k P); auto.
  - right. f_equal. clear - Efc. revert f_low Efc. induction fuel as [|fuel IH]; intros f; cbn.
    + congruence.
    + destruct (Rltb _ _); [|discriminate].
      destruct (fo_centres fuel n (Rpower 2 (1 / n) * f) _) eqn:E; cbn; [discriminate|].
      intros [= <-]. eapply IH. exact E.
Qed.

(** band limits tile [0, fs/2] *)
Lemma length_limits n fs fcs : fcs <> [] -> length (fo_limits n fs fcs) = S (length fcs).
Proof.
  intros H. unfold fo_limits. destruct (nth _ _ _) as [[lo a] b].
  destruct (nth 0 _ _) as [[lo0 a0] b0]. cbn [length]. rewrite length_upd, map_length. auto.
Qed.

Definition lim_lo (t : R * R * R) := let '(a, _, _) := t in a.
Definition lim_hi (t : R * R * R) := let '(_, _, b) := t in b.

Lemma limits_entries n fs f_low M : (1 <= M)%nat -> let ff := fo_limits n fs (map (centre n f_low) (seq 0 M)) in
  lim_lo (nth 0 ff (0, 0, 0)) = 0 /\ lim_hi (nth 0 ff (0, 0, 0)) = centre n f_low 0 / half_step n /\
  (forall i, (i < M)%nat -> lim_lo (nth (S i) ff (0, 0, 0)) = centre n f_low i / half_step n) /\
  (forall i, (S i < M)%nat -> lim_hi (nth (S i) ff (0, 0, 0)) = centre n f_low i * half_step n) /\
  lim_hi (nth M ff (0, 0, 0)) = fs / 2.
Proof.
  intros HM ff. unfold ff, fo_limits. rewrite !map_length, seq_length, map_map.
  set (rws := map (fun i => (fo_lo n (centre n f_low i), centre n f_low i, fo_hi n (centre n f_low i))) (seq 0 M)).
  assert (Lr : length rws = M) by (unfold rws; rewrite map_length, seq_length; auto).
  assert (R : forall i, (i < M)%nat -> nth i rws (0, 0, 0) =
     (fo_lo n (centre n f_low i), centre n f_low i, fo_hi n (centre n f_low i))).
  { intros i Hi. unfold rws. rewrite nth_map_seq by auto. reflexivity. }
  rewrite (R (M - 1)%nat) by lia.
  set (u := upd rws (M - 1) _).
  assert (U : forall i, (i < M)%nat -> lim_lo (nth i u (0, 0, 0)) = fo_lo n (centre n f_low i)).
  { intros i Hi. unfold u. destruct (Nat.eq_dec (M - 1) i) as [<-|N].
    - rewrite nth_upd_same by lia. reflexivity.
    - rewrite nth_upd_other by auto. rewrite R by auto. reflexivity. }
  assert (U0 : exists a b, nth 0 u (0, 0, 0) = (fo_lo n (centre n f_low 0), a, b)).
  { specialize (U 0%nat ltac:(lia)). destruct (nth 0 u (0, 0, 0)) as [[x y] z]. cbn in U. subst x. eauto. }
  destruct U0 as (a & b & ->). cbn [nth].
  split; [reflexivity|]. split; [reflexivity|]. split; [|split].
  - intros i Hi. rewrite U by auto. reflexivity.
  - intros i Hi. unfold u. rewrite nth_upd_other by lia. rewrite R by lia. reflexivity.
  - destruct M as [|M]; [lia|]. unfold u. replace (S M - 1)%nat with M by lia.
    rewrite nth_upd_same by lia. reflexivity.
Qed.

Lemma half_step_next n f i : 0 < n -> centre n f (S i) / half_step n = centre n f i * half_step n.
Proof.
  intros Hn. unfold centre, half_step. rewrite S_INR.
  replace ((INR i + 1) / n) with (INR i / n + (1 / (2 * n) + 1 / (2 * n))) by (field; lra).
  rewrite !Rpower_plus. field. apply Rgt_not_eq. apply exp_pos.
Qed.

(** ** pulsed noise *)
Lemma imul_slice_spec l (a b : nat) (za zb : Z) m :
  norm_idx (length l) za = a -> norm_idx (length l) zb = b -> (a <= b <= length l)%nat ->
  length m = (b - a)%nat ->
  exists l', imul_slice l za zb m = Ok l' /\ length l' = length l /\
    forall i, nth i l' 0 = if (Nat.leb a i && Nat.ltb i b)%bool then nth i l 0 * nth (i - a) m 0 else nth i l 0.
Proof.
  intros Ha Hb Hab Hm. unfold imul_slice.
  assert (Ls : length (slice l za zb) = (b - a)%nat) by (rewrite length_slice; congruence).
  unfold mul_arrays. rewrite Ls, Hm, Nat.eqb_refl. cbn [bind].
  assert (Lz : length (zip_mul (slice l za zb) m) = (b - a)%nat).
  { unfold zip_mul. rewrite map_length, combine_length. lia. }
  rewrite Lz, Nat.eqb_refl.
  assert (E : slice_set l za zb (zip_mul (slice l za zb) m) =
              slice_set l (Z.of_nat a) (Z.of_nat b) (zip_mul (slice l za zb) m)).
  { unfold slice_set. rewrite Ha, Hb, !norm_idx_nat by lia. reflexivity. }
  rewrite E. destruct (nth_slice_set l a b (zip_mul (slice l za zb) m) 0 0 Hab Lz) as (l' & E' & L' & _).
  exists l'. split; auto. split; auto. intros i.
  destruct (nth_slice_set l a b (zip_mul (slice l za zb) m) 0 i Hab Lz) as (l2 & E2 & _ & N).
  rewrite E' in E2. injection E2 as <-. rewrite N.
  destruct (Nat.leb_spec a i); cbn [andb]; auto. destruct (Nat.ltb_spec i b); auto.
  unfold zip_mul. rewrite (nth_map_in _ _ (i - a) 0 (0, 0)) by (rewrite combine_length; lia).
  rewrite combine_nth by lia. cbn [fst snd]. rewrite nth_slice by (rewrite Ha, Hb; lia).
  rewrite Ha. do 2 f_equal. lia.
Qed.

Section Pulse.
Variables (randn : nat -> nat -> list R) (pink : list R -> list R).
Definition fade_gain (mn L j : nat) : R :=
  (if Nat.ltb j mn then sin (lin_fade mn j) ^ 2 else 1) *
  (if Nat.leb (L - mn) j then cos (lin_fade mn (j - (L - mn))) ^ 2 else 1).

Lemma pn_pulse_spec i tn tp fs tf (pk : bool) n mn :
  py_int (IZR fs * tn) = Z.of_nat n -> py_int (IZR fs * tf) = Z.of_nat mn ->
  let raw := if pk then pink (randn i n) else randn i n in
  (1 <= mn <= length raw)%nat ->
  exists s, pn_pulse randn pink i tn tp fs tf pk = Ok (s ++ repeat 0 n) /\ length s = length raw /\
    forall j, (j < length raw)%nat -> nth j s 0 = nth j raw 0 * fade_gain mn (length raw) j.
Proof.
  intros Hn Hm raw Hmn. unfold pn_pulse. rewrite Hn, Hm.
  destruct (Z.ltb_spec (Z.of_nat n) 0); [lia|]. destruct (Z.ltb_spec (Z.of_nat mn) 0); [lia|].
  rewrite !Nat2Z.id. fold raw.
  destruct (imul_slice_spec raw 0 mn 0 (Z.of_nat mn) (mask_in mn)) as (s1 & E1 & L1 & N1).
  { apply (norm_idx_nat _ 0). lia. } { apply norm_idx_nat. lia. } { lia. }
  { unfold mask_in. rewrite map_length, seq_length. lia. }
  rewrite E1. cbn [bind].
  destruct (imul_slice_spec s1 (length s1 - mn) (length s1) (- Z.of_nat mn) (Z.of_nat (length s1)) (mask_out mn))
    as (s2 & E2 & L2 & N2).
  { unfold norm_idx. destruct (Z.ltb_spec (- Z.of_nat mn) 0); lia. } { apply norm_idx_nat. lia. } { lia. }
  { unfold mask_out. rewrite map_length, seq_length. lia. }
  rewrite E2. cbn [bind]. exists s2. split; auto. split; [congruence|].
  intros j Hj. rewrite N2, N1, L1. unfold fade_gain.
  replace (Nat.ltb j (length raw)) with true by (symmetry; apply Nat.ltb_lt; auto).
  rewrite Bool.andb_true_r. cbn [Nat.leb andb]. rewrite Nat.sub_0_r.
  assert (A : Nat.ltb j mn = true -> nth j (mask_in mn) 0 = sin (lin_fade mn j) ^ 2).
  { intros T. apply Nat.ltb_lt in T. unfold mask_in. rewrite nth_map_seq; auto. }
  assert (B : Nat.leb (length raw - mn) j = true ->
     nth (j - (length raw - mn)) (mask_out mn) 0 = cos (lin_fade mn (j - (length raw - mn))) ^ 2).
  { intros T. apply Nat.leb_le in T. unfold mask_out. rewrite nth_map_seq by lia. auto. }
  destruct (Nat.leb (length raw - mn) j); destruct (Nat.ltb j mn); rewrite ?A, ?B by auto; ring.
Qed.

Lemma fade_gain_range mn L j : 0 <= fade_gain mn L j <= 1.
Proof.
  unfold fade_gain.
  assert (Q : forall x, -1 <= x <= 1 -> 0 <= x ^ 2 <= 1) by (intros; nra).
  assert (A := Q _ (SIN_bound (lin_fade mn j))). assert (B := Q _ (COS_bound (lin_fade mn (j - (L - mn))))).
  destruct (Nat.ltb j mn), (Nat.leb (L - mn) j); nra.
Qed.
Lemma fade_gain_first mn L : (1 <= mn)%nat -> fade_gain mn L 0 = 0.
Proof.
  intros H. unfold fade_gain. destruct (Nat.ltb_spec 0 mn); [|lia].
  assert (Z : lin_fade mn 0 = 0). { unfold lin_fade. destruct (Nat.eqb mn 1); auto. cbn [INR]. unfold Rdiv. ring. }
  rewrite Z, sin_0. ring.
Qed.
Lemma fade_gain_last mn L : (2 <= mn <= L)%nat -> fade_gain mn L (L - 1) = 0.
Proof.
  intros H. unfold fade_gain. destruct (Nat.leb_spec (L - mn) (L - 1)); [|lia].
  replace (L - 1 - (L - mn))%nat with (mn - 1)%nat by lia.
  assert (Z : lin_fade mn (mn - 1) = PI / 2).
  { unfold lin_fade. destruct (Nat.eqb_spec mn 1); [lia|]. field. apply not_0_INR. lia. }
  rewrite Z, cos_PI2. ring.
Qed.

(** concatenation of equally long blocks *)
Lemma nth_concat_blocks (ps : list (list R)) B i j :
  (forall p, In p ps -> length p = B) -> (i < length ps)%nat -> (j < B)%nat ->
  nth (i * B + j) (concat ps) 0 = nth j (nth i ps []) 0.
Proof.
  revert i; induction ps as [|p ps IH]; intros i HB Hi Hj; [cbn in Hi; lia|].
  assert (Lp : length p = B) by (apply HB; left; auto). cbn [concat].
  destruct i as [|i]; cbn [nth].
  - rewrite app_nth1 by lia. f_equal; lia.
  - rewrite app_nth2 by lia. rewrite <- IH; auto.
    + f_equal. lia.
    + intros; apply HB; right; auto.
    + cbn in Hi; lia.
Qed.
Lemma length_concat_blocks (ps : list (list R)) B :
  (forall p, In p ps -> length p = B) -> length (concat ps) = (length ps * B)%nat.
Proof.
  induction ps as [|p ps IH]; intros H; cbn [concat length]; auto.
  rewrite app_length, (H p) by (left; auto). rewrite IH by (intros; apply H; right; auto). lia.
Qed.

Definition raw_noise (pk : bool) (i n : nat) : list R := if pk then pink (randn i n) else randn i n.

Lemma pulses tn tp fs tf pk n mn L reps :
  py_int (IZR fs * tn) = Z.of_nat n -> py_int (IZR fs * tf) = Z.of_nat mn ->
  (forall i, length (raw_noise pk i n) = L) -> (1 <= mn <= L)%nat ->
  exists ps, mapM (fun i => pn_pulse randn pink i tn tp fs tf pk) (seq 0 reps) = Ok ps /\
    length ps = reps /\ (forall p, In p ps -> length p = (L + n)%nat) /\
    forall i, (i < reps)%nat ->
      (forall j, (j < L)%nat -> nth j (nth i ps []) 0 = nth j (raw_noise pk i n) 0 * fade_gain mn L j) /\
      (forall j, (L <= j < L + n)%nat -> nth j (nth i ps []) 0 = 0).
Proof.
  intros Hn Hm HL Hmn.
  set (f := fun i => pn_pulse randn pink i tn tp fs tf pk).
  assert (F : forall i, exists s, f i = Ok (s ++ repeat 0 n) /\ length s = L /\
    forall j, (j < L)%nat -> nth j s 0 = nth j (raw_noise pk i n) 0 * fade_gain mn L j).
  { intros i. destruct (pn_pulse_spec i tn tp fs tf pk n mn Hn Hm) as (s & E & Ls & N).
    - fold (raw_noise pk i n). rewrite HL. auto.
    - fold (raw_noise pk i n) in Ls, N. rewrite HL in Ls, N. eauto. }
  assert (G : forall m a, exists ps, mapM f (seq a m) = Ok ps /\ length ps = m /\
     (forall p, In p ps -> length p = (L + n)%nat) /\
     forall i, (i < m)%nat ->
      (forall j, (j < L)%nat -> nth j (nth i ps []) 0 = nth j (raw_noise pk (a + i) n) 0 * fade_gain mn L j) /\
      (forall j, (L <= j < L + n)%nat -> nth j (nth i ps []) 0 = 0)).
  { induction m as [|m IH]; intros a; cbn [seq mapM].
    - exists []. split; auto. split; auto. split; [intros p []|]. intros; lia.
    - destruct (F a) as (s & E & Ls & N). rewrite E. cbn [bind].
      destruct (IH (S a)) as (ps & E2 & L2 & B2 & N2). rewrite E2. cbn [bind].
      exists ((s ++ repeat 0 n) :: ps). split; auto. split; [cbn; auto|]. split.
      { intros p [<-|Hp]; auto. rewrite app_length, repeat_length. lia. }
      intros [|i] Hi; cbn [nth].
      + rewrite Nat.add_0_r. split; intros j Hj.
        * rewrite app_nth1 by lia. auto.
        * rewrite app_nth2 by lia. apply nth_repeat_in. lia.
      + replace (a + S i)%nat with (S a + i)%nat by lia. apply N2. lia. }
  destruct (G reps 0%nat) as (ps & H). exists ps. exact H.
Qed.
End Pulse.
