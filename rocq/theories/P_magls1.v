(** magls_bin: phases, fits, tapers. *)
From Verif Require Import Base BaseFacts M_utils M_sig M_process M_sph M_parsa2 M_parsa3 M_decoder4 S_grids S_lsq S_magls P_utils P_sig P_parsa3 P_proc2 P_proc5 P_lsq.
Open Scope R_scope.

(** ** unwrap *)
Lemma unwrap_step_spec dd : (exists m : Z, unwrap_step dd = 2 * PI * IZR m) /\ Rabs (dd + unwrap_step dd) <= PI.
Proof.
  pose proof PI_RGT_0 as HP. unfold unwrap_step. destruct (Rltb (Rabs dd) PI) eqn:E.
  - apply Rltb_true in E. split; [exists 0%Z; lra|]. rewrite Rplus_0_r. lra.
  - set (q := Int_part ((dd + PI) / (2 * PI))).
    assert (B : IZR q <= (dd + PI) / (2 * PI) < IZR q + 1) by (unfold q; pose proof (base_Int_part ((dd + PI) / (2 * PI))); lra).
    assert (B2 : 2 * PI * IZR q <= dd + PI < 2 * PI * IZR q + 2 * PI).
    { replace (dd + PI) with (2 * PI * ((dd + PI) / (2 * PI))) by (field; lra). split; [apply Rmult_le_compat_l; lra|].
      replace (2 * PI * IZR q + 2 * PI) with (2 * PI * (IZR q + 1)) by ring. apply Rmult_lt_compat_l; lra. }
    unfold pymod. fold q. destruct (Reqb (dd + PI - 2 * PI * IZR q - PI) (- PI) && Rltb 0 dd)%bool eqn:C.
    + apply andb_prop in C. destruct C as [C _]. apply Reqb_true in C. split.
      * exists (1 - q)%Z. rewrite minus_IZR. lra.
      * replace (dd + (PI - dd)) with PI by ring. rewrite Rabs_pos_eq by lra. lra.
    + split; [exists (- q)%Z; rewrite opp_IZR; lra|].
      apply Rabs_le. lra.
Qed.
Lemma unwrap_from_spec l : forall prev corr (m0 : Z), corr = 2 * PI * IZR m0 ->
  length (unwrap_from prev corr l) = length l /\
  (forall i, (i < length l)%nat -> exists m : Z, nth i (unwrap_from prev corr l) 0 = nth i l 0 + 2 * PI * IZR m) /\
  (forall i, (i < length l)%nat -> Rabs (nth i (unwrap_from prev corr l) 0 - nth i ((prev + corr) :: unwrap_from prev corr l) 0) <= PI).
Proof.
  induction l as [|x l IH]; intros prev corr m0 Hc; cbn [unwrap_from length].
  - split; [reflexivity|]. split; intros; lia.
  - destruct (unwrap_step_spec (x - prev)) as ((m & Em) & HB). set (c := corr + unwrap_step (x - prev)).
    assert (Hc' : c = 2 * PI * IZR (m0 + m)) by (unfold c; rewrite Hc, Em, plus_IZR; ring).
    destruct (IH x c (m0 + m)%Z Hc') as (L & A & B). cbn [length]. split; [f_equal; exact L|]. split.
    + intros [|i] Hi; cbn [nth]; [exists (m0 + m)%Z; rewrite Hc'; ring|]. apply A. lia.
    + intros [|i] Hi.
      * cbn [nth]. unfold c. replace (x + (corr + unwrap_step (x - prev)) - (prev + corr)) with (x - prev + unwrap_step (x - prev)) by ring. exact HB.
      * specialize (B i ltac:(lia)). cbn [nth] in *. exact B.
Qed.
Lemma unwrap_ok l n : (n <= length l)%nat -> (1 <= n)%nat -> unwrapped n (fun k => nth k l 0) (fun k => nth k (np_unwrap l) 0) /\ length (np_unwrap l) = length l.
Proof.
  destruct l as [|x l]; intros L N; [cbn in L; lia|]. cbn [np_unwrap length]. cbn [length] in L.
  destruct (unwrap_from_spec l x 0 0 ltac:(lra)) as (L' & A & B). split; [|cbn [length]; f_equal; exact L'].
  split; [reflexivity|]. split.
  - intros [|k] Hk; cbn [nth]; [exists 0%Z; lra|]. apply A. lia.
  - intros k Hk. specialize (B k ltac:(lia)). rewrite Rplus_0_r in B. cbn [nth]. exact B.
Qed.
Lemma mean_diff5 a b c d e : np_mean (np_diff [a; b; c; d; e]) = (e - a) / 4.
Proof. unfold np_mean. cbn [np_diff lsum length]. replace (INR 4) with 4 by (simpl; ring). field. Qed.
Lemma five (l : list R) : length l = 5%nat -> l = [nth 0 l 0; nth 1 l 0; nth 2 l 0; nth 3 l 0; nth 4 l 0].
Proof. destruct l as [|a [|b [|c [|d [|e [|]]]]]]; cbn [length]; intros H; try discriminate; reflexivity. Qed.
Lemma slope_ok kc p : (5 < kc)%nat -> (kc <= length p)%nat -> mean_increment kc (fun k => nth k p 0) (slope kc p).
Proof.
  intros Hk L. destruct (unwrap_ok p kc L ltac:(lia)) as (U & LU). exists (fun k => nth k (np_unwrap p) 0). split; [exact U|].
  unfold slope. set (u := np_unwrap p) in *.
  assert (N1 : norm_idx (length u) (Z.of_nat kc - 6) = (kc - 6)%nat) by (unfold norm_idx; destruct (Z.ltb_spec (Z.of_nat kc - 6) 0); lia).
  assert (N2 : norm_idx (length u) (Z.of_nat kc - 1) = (kc - 1)%nat) by (unfold norm_idx; destruct (Z.ltb_spec (Z.of_nat kc - 1) 0); lia).
  assert (LS : length (slice u (Z.of_nat kc - 6) (Z.of_nat kc - 1)) = 5%nat) by (rewrite length_slice; rewrite ?N1, ?N2; lia).
  rewrite (five _ LS), mean_diff5. rewrite !nth_slice by (rewrite N1, N2; lia). rewrite N1.
  replace (kc - 6 + 4)%nat with (kc - 2)%nat by lia. rewrite Nat.add_0_r. reflexivity.
Qed.

(** ** fits *)
Definition rmv (A : mat) (v : list C2) : list C2 :=
  map (fun i => csum (nc A) (fun j => cscal (ent A i j) (nth j v (0, 0)))) (seq 0 (nr A)).
Lemma rmatvec_ok A v : length v = nc A -> rmatvec A v = Ok (rmv A v).
Proof. intros L. unfold rmatvec. rewrite L, Nat.eqb_refl. reflexivity. Qed.
Lemma length_rmv A v : length (rmv A v) = nr A.
Proof. unfold rmv. rewrite map_length, seq_length. reflexivity. Qed.
Lemma nth_rmv A v i : (i < nr A)%nat -> nth i (rmv A v) (0, 0) =
  (rsum (nc A) (fun j => ent A i j * fst (nth j v (0, 0))), rsum (nc A) (fun j => ent A i j * snd (nth j v (0, 0)))).
Proof.
  intros Hi. unfold rmv. rewrite (nth_map_in _ _ i (0, 0) 0%nat) by (rewrite seq_length; exact Hi). rewrite seq_nth by exact Hi. reflexivity.
Qed.
Lemma best_fit_ext Y t t' c c' : (forall g, (g < nr Y)%nat -> t g = t' g) -> (forall j, (j < nc Y)%nat -> c j = c' j) -> best_fit Y t c -> best_fit Y t' c'.
Proof.
  intros T C B d. assert (M : forall d d', (forall j, (j < nc Y)%nat -> d j = d' j) -> misfit Y t d = misfit Y t' d').
  { intros u v E. unfold misfit. apply rsum_ext. intros g Hg. rewrite (T g Hg). do 2 f_equal. apply rsum_ext. intros j Hj. rewrite (E j Hj). reflexivity. }
  assert (Z2 : size2 (nc Y) c = size2 (nc Y) c') by (unfold size2; apply rsum_ext; intros j Hj; rewrite (C j Hj); reflexivity).
  rewrite <- (M c c' C), <- (M d d (fun _ _ => eq_refl)), <- Z2. apply B.
Qed.
Lemma cfit_pinv Y P v : penrose Y P -> length v = nr Y -> cfit Y (fun g => nth g v (0, 0)) (fun j => nth j (rmv P v) (0, 0)).
Proof.
  intros HP L. pose proof HP as (R1 & C1 & _). split.
  - eapply best_fit_ext; [| |exact (pinv_fit Y P (fun g => fst (nth g v (0, 0))) HP)]; [reflexivity|].
    intros j Hj. rewrite nth_rmv by lia. cbn [fst]. rewrite C1. reflexivity.
  - eapply best_fit_ext; [| |exact (pinv_fit Y P (fun g => snd (nth g v (0, 0))) HP)]; [reflexivity|].
    intros j Hj. rewrite nth_rmv by lia. cbn [snd]. rewrite C1. reflexivity.
Qed.
Lemma cfit_ext Y t t' c c' : (forall g, (g < nr Y)%nat -> t g = t' g) -> (forall j, (j < nc Y)%nat -> c j = c' j) -> cfit Y t c -> cfit Y t' c'.
Proof.
  intros T C [A B]. split.
  - refine (best_fit_ext Y _ _ _ _ _ _ A); cbn beta; [intros g Hg; rewrite (T g Hg)|intros j Hj; rewrite (C j Hj)]; reflexivity.
  - refine (best_fit_ext Y _ _ _ _ _ _ B); cbn beta; [intros g Hg; rewrite (T g Hg)|intros j Hj; rewrite (C j Hj)]; reflexivity.
Qed.
Lemma nth_decoded Y v g : (g < nr Y)%nat -> nth g (rmv Y v) (0, 0) = decoded Y (fun j => nth j v (0, 0)) g.
Proof. intros Hg. rewrite nth_rmv by exact Hg. reflexivity. Qed.

(** ** the nearest bin *)
Lemma argmin_ok l : l <> [] -> exists k, argmin l = Ok k /\ (k < length l)%nat /\
  (forall j, (j < length l)%nat -> nth k l 0 <= nth j l 0) /\ (forall j, (j < k)%nat -> nth k l 0 < nth j l 0).
Proof.
  intros NE. destruct (argmax_spec (map Ropp l)) as (k & E & Hk & A & B); [destruct l; [contradiction|discriminate]|].
  rewrite map_length in *. assert (N : forall j, nth j (map Ropp l) 0 = - nth j l 0) by (intros j; rewrite <- (map_nth Ropp l 0 j); rewrite Ropp_0; reflexivity).
  exists k. split; [exact E|]. split; [exact Hk|]. split; intros j Hj; [specialize (A j Hj)|specialize (B j Hj)]; rewrite !N in *; lra.
Qed.
Definition freq_list (n : nat) (fs : R) : list R := map (fun k => INR k / (INR n * (1 / fs))) (seq 0 (n / 2 + 1)).
Lemma nth_freq n fs k : fs <> 0 -> n <> 0%nat -> (k <= n / 2)%nat -> nth k (freq_list n fs) 0 = INR k * fs / INR n.
Proof.
  intros F N K. unfold freq_list. rewrite (nth_map_in _ _ k 0 0%nat) by (rewrite seq_length; lia). rewrite seq_nth by lia. cbn [plus].
  assert (INR n <> 0) by (apply not_0_INR; exact N). field. auto.
Qed.
Lemma nearest_ok n fs f : fs <> 0 -> n <> 0%nat -> exists k, argmin (map (fun x => Rabs (x - f)) (freq_list n fs)) = Ok k /\ nearest_bin n fs f k.
Proof.
  intros F N. set (l := map (fun x => Rabs (x - f)) (freq_list n fs)).
  assert (L : length l = (n / 2 + 1)%nat) by (unfold l, freq_list; rewrite !map_length, seq_length; reflexivity).
  destruct (argmin_ok l) as (k & E & Hk & A & B); [intros Q; rewrite Q in L; cbn in L; lia|].
  assert (V : forall j, (j <= n / 2)%nat -> nth j l 0 = Rabs (INR j * fs / INR n - f)).
  { intros j Hj. unfold l. rewrite (nth_map_in _ _ j 0 0) by (unfold freq_list; rewrite map_length, seq_length; lia). rewrite nth_freq by assumption. reflexivity. }
  exists k. split; [exact E|]. rewrite L in *. split; [lia|]. split; intros j Hj; [specialize (A j ltac:(lia))|specialize (B j Hj)]; rewrite !V in * by lia; assumption.
Qed.
Lemma nearest_unique n fs f k k' : nearest_bin n fs f k -> nearest_bin n fs f k' -> k = k'.
Proof.
  intros (A & B & C) (A' & B' & C'). destruct (lt_eq_lt_dec k k') as [[H|H]|H]; [|exact H|]; exfalso.
  - specialize (C' k H). specialize (B k' A'). lra.
  - specialize (C k' H). specialize (B' k A). lra.
Qed.

(** ** tapers *)
Lemma hann_val (M n : nat) : (2 <= M)%nat -> (n < M)%nat -> nth n (np_hanning (Z.of_nat M)) 0 = (1 - cos (2 * PI * INR n / INR (M - 1))) / 2.
Proof.
  intros HM Hn. unfold np_hanning. destruct (Z.ltb_spec (Z.of_nat M) 1); [lia|]. destruct (Z.eqb_spec (Z.of_nat M) 1); [lia|].
  rewrite (nth_map_in _ _ n 0 0%nat) by (rewrite seq_length; lia). rewrite seq_nth by lia. cbn [plus].
  assert (D : 0 < INR (M - 1)) by (apply lt_0_INR; lia).
  replace (IZR (2 * Z.of_nat n + 1 - Z.of_nat M)) with (2 * INR n - INR (M - 1)) by (rewrite minus_INR, minus_IZR, plus_IZR, mult_IZR, <- !INR_IZR_INZ by lia; simpl (INR 1); ring).
  replace (IZR (Z.of_nat M - 1)) with (INR (M - 1)) by (rewrite minus_INR, minus_IZR, <- INR_IZR_INZ by lia; reflexivity).
  replace (PI * (2 * INR n - INR (M - 1)) / INR (M - 1)) with (- (PI - 2 * PI * INR n / INR (M - 1))) by (field; lra).
  rewrite cos_neg, cos_minus, cos_PI, sin_PI. field.
Qed.
Lemma length_hann (M : nat) : (2 <= M)%nat -> length (np_hanning (Z.of_nat M)) = M.
Proof. intros H. unfold np_hanning. destruct (Z.ltb_spec (Z.of_nat M) 1); [lia|]. destruct (Z.eqb_spec (Z.of_nat M) 1); [lia|]. rewrite map_length, seq_length. lia. Qed.
Lemma fade_out_mask : length (slice_from (np_hanning 64) 32) = 32%nat /\
  forall i, (i < 32)%nat -> nth i (slice_from (np_hanning 64) 32) 0 = (1 - cos (2 * PI * INR (i + 32) / 63)) / 2.
Proof.
  change 64%Z with (Z.of_nat 64). unfold slice_from. rewrite length_hann by lia. replace (norm_idx 64 32) with 32%nat by reflexivity. split.
  - rewrite skipn_length, length_hann by lia. reflexivity.
  - intros i Hi. rewrite nth_skipn, hann_val by lia. replace (INR (64 - 1)) with 63 by (simpl; ring). rewrite (Nat.add_comm i 32). reflexivity.
Qed.
Lemma fade_in_mask : length (slice_to (np_hanning 8) 4) = 4%nat /\
  forall i, (i < 4)%nat -> nth i (slice_to (np_hanning 8) 4) 0 = (1 - cos (2 * PI * INR i / 7)) / 2.
Proof.
  change 8%Z with (Z.of_nat 8). unfold slice_to. rewrite length_hann by lia. replace (norm_idx 8 4) with 4%nat by reflexivity. split.
  - rewrite firstn_length, length_hann by lia. reflexivity.
  - intros i Hi. rewrite nth_firstn by lia. rewrite hann_val by lia. replace (INR (8 - 1)) with 7 by (simpl; ring). reflexivity.
Qed.
Lemma taper_ok x : (32 <= length x)%nat -> exists y, taper_ends x = Ok y /\ length y = length x /\
  forall t, (t < length x)%nat -> nth t y 0 = edge_taper (length x) t * nth t x 0.
Proof.
  intros L. unfold taper_ends. destruct fade_out_mask as (LO & VO). destruct fade_in_mask as (LI & VI).
  destruct (imul_slice_spec x (length x - 32) (length x) (-32) (Z.of_nat (length x)) (slice_from (np_hanning 64) 32)) as (y & E & LY & V).
  { unfold norm_idx. cbn [Z.ltb Z.compare]. lia. } { unfold norm_idx. destruct (Z.ltb_spec (Z.of_nat (length x)) 0); lia. } { lia. } { rewrite LO. lia. }
  rewrite E. cbn [bind].
  destruct (imul_slice_spec y 0 4 0 4 (slice_to (np_hanning 8) 4)) as (z & E2 & LZ & V2).
  { unfold norm_idx. cbn [Z.ltb Z.compare]. lia. } { unfold norm_idx. destruct (Z.ltb_spec 4 0); lia. } { lia. } { rewrite LI. lia. }
  exists z. split; [exact E2|]. split; [lia|]. intros t Ht. rewrite V2, V. unfold edge_taper. cbn [Nat.leb andb]. rewrite (proj2 (Nat.ltb_lt t (length x)) Ht), Bool.andb_true_r.
  destruct (Nat.leb_spec (length x - 32) t) as [H1|H1]; destruct (Nat.ltb_spec t 4) as [H2|H2].
  - rewrite VO, VI by lia. replace (t - (length x - 32) + 32)%nat with (t + 64 - length x)%nat by lia. rewrite Nat.sub_0_r. ring.
  - rewrite VO by lia. replace (t - (length x - 32) + 32)%nat with (t + 64 - length x)%nat by lia. ring.
  - rewrite VI by lia. rewrite Nat.sub_0_r. ring.
  - ring.
Qed.
Lemma taper_short x : (length x < 32)%nat -> taper_ends x = Err ValueError.
Proof.
  intros L. unfold taper_ends, imul_slice. destruct fade_out_mask as (LO & _).
  assert (LS : length (slice x (-32) (Z.of_nat (length x))) = length x).
  { rewrite length_slice; unfold norm_idx; cbn [Z.ltb Z.compare]; destruct (Z.ltb_spec (Z.of_nat (length x)) 0); lia. }
  unfold mul_arrays. rewrite LS, LO. rewrite (proj2 (Nat.eqb_neq (length x) 32)) by lia.
  set (m := slice_from (np_hanning 64) 32) in *. set (s := slice x (-32) (Z.of_nat (length x))) in *.
  destruct s as [|a [|b s]]; [destruct m as [|c [|d m]]; try discriminate LO; reflexivity| |].
  - cbn [bind]. rewrite map_length, LO. rewrite (proj2 (Nat.eqb_neq 32 (length x))) by lia. reflexivity.
  - destruct m as [|c [|d m]]; try discriminate LO. reflexivity.
Qed.
