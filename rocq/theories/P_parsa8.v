(** pseudo_intensity: the windows, the loop, the workers and the smoothing. *)
From Coq Require Import Permutation.
From Verif Require Import Base BaseFacts M_utils M_sig M_process M_decoder M_decoder2 M_decoder3 M_parsa2
  S_decoder3 S_parsa2 P_sig P_proc1 P_dec13 P_parsa6 P_parsa7.
Open Scope R_scope.

Lemma length_hanning h : length (np_hanning (odd h)) = (2 * h + 1)%nat.
Proof.
  unfold np_hanning, odd. destruct (Z.ltb_spec (Z.of_nat (2 * h + 1)) 1); [lia|].
  destruct (Z.eqb_spec (Z.of_nat (2 * h + 1)) 1); [cbn; lia|].
  rewrite map_length, seq_length. lia.
Qed.
Lemma nth_hanning h k : (1 <= h)%nat -> (k < 2 * h + 1)%nat -> nth k (np_hanning (odd h)) 0 = hann (2 * h + 1) k.
Proof.
  intros H K. unfold np_hanning, odd. destruct (Z.ltb_spec (Z.of_nat (2 * h + 1)) 1); [lia|].
  destruct (Z.eqb_spec (Z.of_nat (2 * h + 1)) 1); [lia|].
  rewrite Nat2Z.id, nth_map_seq by exact K. unfold hann.
  replace (2 * h + 1 - 1)%nat with (2 * h)%nat by lia.
  assert (0 < INR h) as P by (apply lt_0_INR; lia).
  assert (PI * IZR (2 * Z.of_nat k + 1 - Z.of_nat (2 * h + 1)) / IZR (Z.of_nat (2 * h + 1) - 1) =
    2 * (PI * INR k / INR (2 * h)) - PI) as ->.
  { replace (2 * Z.of_nat k + 1 - Z.of_nat (2 * h + 1))%Z with (2 * (Z.of_nat k - Z.of_nat h))%Z by lia.
    replace (Z.of_nat (2 * h + 1) - 1)%Z with (2 * Z.of_nat h)%Z by lia.
    rewrite !mult_IZR, minus_IZR, <- !INR_IZR_INZ, mult_INR. change (INR 2) with 2. field. lra. }
  set (x := PI * INR k / INR (2 * h)). rewrite cos_minus, cos_PI, sin_PI, cos_2a_sin. unfold Rsqr. lra.
Qed.
Lemma hanning_1 : np_hanning (odd 0) = [1].
Proof. reflexivity. Qed.
Lemma hann_first n : hann n 0 = 0.
Proof. unfold hann. change (INR 0) with 0. unfold Rdiv. rewrite Rmult_0_r, Rmult_0_l, sin_0. unfold Rsqr; lra. Qed.
Lemma hann_last h : (1 <= h)%nat -> hann (2 * h + 1) (2 * h) = 0.
Proof.
  intros H. unfold hann. replace (2 * h + 1 - 1)%nat with (2 * h)%nat by lia.
  replace (PI * INR (2 * h) / INR (2 * h)) with PI; [rewrite sin_PI; unfold Rsqr; lra|].
  field. apply not_0_INR. lia.
Qed.

Lemma bmul_same a b : length a = length b -> bmul a b = Ok (zip_mul a b).
Proof. intros E. unfold bmul. rewrite E, Nat.eqb_refl. reflexivity. Qed.
Lemma length_zip_mul a b : length a = length b -> length (zip_mul a b) = length a.
Proof. revert b; induction a as [|x a IH]; intros [|y b] H; cbn in *; try lia. f_equal. apply IH. lia. Qed.
Lemma nth_zip_mul a b k : length a = length b -> nth k (zip_mul a b) 0 = nth k a 0 * nth k b 0.
Proof.
  revert b k; induction a as [|x a IH]; intros [|y b] k H; cbn in H; try lia.
  - destruct k; cbn; lra.
  - destruct k; cbn [zip_mul nth]; [reflexivity|]. apply IH. lia.
Qed.
Lemma trapz_ends l : (1 <= length l)%nat -> trapz l = lsum l - (nth 0 l 0 + nth (length l - 1) l 0) / 2.
Proof.
  destruct l as [|x l]; [cbn; lia|]. intros _. rewrite trapz_lsum.
  assert (forall t z, last (z :: t) 0 = nth (length (z :: t) - 1) (z :: t) 0) as G.
  { induction t as [|y t IH]; intros z; [reflexivity|]. change (last (z :: y :: t) 0) with (last (y :: t) 0).
    rewrite (IH y). cbn [length]. replace (S (S (length t)) - 1)%nat with (S (S (length t) - 1)) by lia. reflexivity. }
  rewrite G. reflexivity.
Qed.
Lemma slice_full (W : list R) i n : (i + n <= length W)%nat ->
  length (slice W (Z.of_nat i) (Z.of_nat i + Z.of_nat n)) = n /\
  forall k, (k < n)%nat -> nth k (slice W (Z.of_nat i) (Z.of_nat i + Z.of_nat n)) 0 = nth (i + k) W 0.
Proof.
  intros H. rewrite <- Nat2Z.inj_add. split.
  - rewrite length_slice, !norm_idx_nat by lia. lia.
  - intros k K. rewrite nth_slice by (rewrite !norm_idx_nat by lia; lia). rewrite norm_idx_nat by lia. reflexivity.
Qed.
Lemma windowed_ok h W V i : (i + (2 * h + 1) <= length W)%nat -> (i + (2 * h + 1) <= length V)%nat ->
  windowed (np_hanning (odd h)) W V (Z.of_nat i) (odd h) =
  Ok (if (h =? 0)%nat then 0 else windowed_product h W V (i + h)).
Proof.
  intros HW HV. unfold windowed. unfold odd at 2 3.
  destruct (slice_full W i (2 * h + 1) HW) as [LW NW]. destruct (slice_full V i (2 * h + 1) HV) as [LV NV].
  rewrite bmul_same by (rewrite length_hanning; congruence). cbn [bind].
  rewrite bmul_same by (rewrite length_zip_mul; rewrite length_hanning; congruence). cbn [bind].
  set (q := zip_mul _ _). f_equal.
  assert (length q = 2 * h + 1)%nat as Lq.
  { unfold q. rewrite length_zip_mul; rewrite length_zip_mul; rewrite length_hanning; congruence. }
  destruct (Nat.eqb_spec h 0) as [->|Hh].
  { destruct q as [|x [|y q]]; [reflexivity|reflexivity|cbn in Lq; lia]. }
  assert (forall k, (k < 2 * h + 1)%nat -> nth k q 0 = hann (2 * h + 1) k * nth (i + k) W 0 * nth (i + k) V 0) as Nq.
  { intros k K. unfold q. rewrite nth_zip_mul by (rewrite length_zip_mul; rewrite length_hanning; congruence).
    rewrite nth_zip_mul by (rewrite length_hanning; congruence). rewrite nth_hanning, NW, NV by lia. reflexivity. }
  rewrite trapz_ends by lia. rewrite Lq. replace (2 * h + 1 - 1)%nat with (2 * h)%nat by lia.
  rewrite (Nq 0%nat), (Nq (2 * h)%nat) by lia. rewrite hann_first, hann_last by lia.
  rewrite lsum_nth, Lq. unfold windowed_product.
  rewrite (rsum_ext _ _ _ (fun k K => Nq k K)).
  replace (i + h - h)%nat with i by lia. lra.
Qed.

(** ** The vectors *)
Definition chan (b : bformat) (c : nat) : list R := nth c [bX b; bY b; bZ b] [].
(** component [c] at sample [j] *)
Definition component (h : nat) (b : bformat) (n j c : nat) : R :=
  if ((h <=? j) && (j + h + 1 <? n) && negb (h =? 0))%nat%bool then windowed_product h (bW b) (chan b c) j else 0.
Lemma intensity_ok h b n i : long b n -> (i + (2 * h + 1) < n)%nat ->
  intensity (np_hanning (odd h)) b (Z.of_nat i) (odd h) =
  Ok (component h b n (i + h) 0, component h b n (i + h) 1, component h b n (i + h) 2).
Proof.
  intros (A & B & C & D) H. unfold intensity. rewrite !windowed_ok by lia. cbn [bind].
  unfold component, chan. cbn [nth].
  destruct (Nat.leb_spec h (i + h)); [|lia]. destruct (Nat.ltb_spec (i + h + h + 1) n); [|lia].
  cbn [andb]. destruct (h =? 0)%nat; reflexivity.
Qed.
Lemma position_ok n j : (j < n)%nat -> position n (Z.of_nat j) = Ok j.
Proof.
  intros H. unfold position. destruct (Z.ltb_spec (Z.of_nat j) 0); [lia|].
  destruct (Z.leb_spec 0 (Z.of_nat j)); [|lia]. destruct (Z.ltb_spec (Z.of_nat j) (Z.of_nat n)); [|lia].
  cbn [andb]. rewrite Nat2Z.id. reflexivity.
Qed.
Lemma half_odd h i : (Z.of_nat i + odd h / 2)%Z = Z.of_nat (i + h).
Proof. unfold odd. replace (Z.of_nat (2 * h + 1) / 2)%Z with (Z.of_nat h); [lia|]. apply (Z.div_unique _ _ _ 1); lia. Qed.
Lemma loop_ok h b n : long b n -> forall m i buf, length buf = (3 * n)%nat -> (m = 0 \/ i + m + (2 * h + 1) <= n)%nat ->
  exists buf', intensity_loop (np_hanning (odd h)) b n (odd h) buf (seq i m) = Ok buf' /\ length buf' = (3 * n)%nat /\
    forall j c, (j < n)%nat -> (c < 3)%nat -> nth (3 * j + c) buf' 0 =
      if ((i + h <=? j) && (j <? i + h + m))%nat%bool then component h b n j c else nth (3 * j + c) buf 0.
Proof.
  intros Hb. induction m as [|m IH]; intros i buf L B.
  - exists buf. split; [reflexivity|]. split; [exact L|]. intros j c J C.
    destruct (Nat.leb_spec (i + h) j); destruct (Nat.ltb_spec j (i + h + 0)); cbn [andb]; try reflexivity. lia.
  - cbn [seq intensity_loop]. rewrite (intensity_ok h b n i Hb) by lia. cbn [bind].
    unfold set_row3. rewrite half_odd, position_ok by lia. cbn [bind vx vy vz fst snd].
    set (buf1 := upd _ _ _).
    destruct (IH (S i) buf1) as (buf' & E & L' & N); [unfold buf1; rewrite !length_upd; exact L|lia|].
    exists buf'. split; [exact E|]. split; [exact L'|]. intros j c J C. rewrite N by assumption.
    unfold buf1. rewrite !nth_upd, !length_upd, L.
    destruct (Nat.eq_dec j (i + h)) as [->|Q].
    + destruct (Nat.leb_spec (S i + h) (i + h)); [lia|]. cbn [andb].
      destruct (Nat.leb_spec (i + h) (i + h)); [|lia]. destruct (Nat.ltb_spec (i + h) (i + h + S m)); [|lia]. cbn [andb].
      destruct c as [|[|[|c]]]; [| | |lia].
      * replace (3 * (i + h) + 0)%nat with (3 * (i + h))%nat by lia.
        destruct (Nat.eqb_spec (3 * (i + h) + 2) (3 * (i + h))); [lia|]. destruct (Nat.eqb_spec (3 * (i + h) + 1) (3 * (i + h))); [lia|].
        rewrite Nat.eqb_refl. destruct (Nat.ltb_spec (3 * (i + h)) (3 * n)); [|lia]. reflexivity.
      * destruct (Nat.eqb_spec (3 * (i + h) + 2) (3 * (i + h) + 1)); [lia|]. rewrite Nat.eqb_refl.
        destruct (Nat.ltb_spec (3 * (i + h) + 1) (3 * n)); [|lia]. reflexivity.
      * rewrite Nat.eqb_refl. destruct (Nat.ltb_spec (3 * (i + h) + 2) (3 * n)); [|lia]. reflexivity.
    + destruct (Nat.eqb_spec (3 * (i + h) + 2) (3 * j + c)); [lia|].
      destruct (Nat.eqb_spec (3 * (i + h) + 1) (3 * j + c)); [lia|].
      destruct (Nat.eqb_spec (3 * (i + h)) (3 * j + c)); [lia|]. cbn [andb].
      destruct (Nat.leb_spec (S i + h) j); destruct (Nat.ltb_spec j (S i + h + m)); cbn [andb];
        destruct (Nat.leb_spec (i + h) j); destruct (Nat.ltb_spec j (i + h + S m)); cbn [andb]; try reflexivity; lia.
Qed.
Lemma window_range_odd n h : window_range n (odd h) = seq 0 (n - (2 * h + 1)).
Proof. unfold window_range, odd. f_equal. lia. Qed.
Lemma buffer_sequential h b n de sc : long b n ->
  exists buf, intensity_buffer b n (odd h) 1 de sc = Ok buf /\ length buf = (3 * n)%nat /\
    forall j c, (j < n)%nat -> (c < 3)%nat -> nth (3 * j + c) buf 0 = component h b n j c.
Proof.
  intros Hb. unfold intensity_buffer. change (1 =? 1)%Z with true. cbn match. rewrite window_range_odd.
  destruct (loop_ok h b n Hb (n - (2 * h + 1)) 0 (repeat 0 (3 * n))) as (buf & E & L & N); [apply repeat_length|lia|].
  exists buf. split; [exact E|]. split; [exact L|]. intros j c J C. rewrite N by assumption. rewrite nth_repeat.
  unfold component. destruct (Nat.leb_spec (0 + h) j); destruct (Nat.ltb_spec j (0 + h + (n - (2 * h + 1)))); cbn [andb];
    destruct (Nat.leb_spec h j); destruct (Nat.ltb_spec (j + h + 1) n); cbn [andb]; try reflexivity; lia.
Qed.

(** ** The workers *)
Definition target (h : nat) (b : bformat) (n k : nat) : R := component h b n (k / 3) (k mod 3).
Lemma target_at h b n j c : (c < 3)%nat -> target h b n (3 * j + c) = component h b n j c.
Proof.
  intros C. unfold target. rewrite (Nat.mul_comm 3 j), Nat.div_add_l by lia. rewrite (Nat.div_small c 3) by lia.
  rewrite Nat.add_0_r, Nat.add_comm, Nat.mod_add by lia. rewrite Nat.mod_small by lia. reflexivity.
Qed.
Definition stores (h : nat) (b : bformat) (n i : nat) : list instr :=
  map (fun c => Store (3 * (i + h) + c) (component h b n (i + h) c)) [0; 1; 2]%nat.
Lemma tasks_ok h b n : long b n ->
  mapM (intensity_task (np_hanning (odd h)) b n) (window_range n (odd h)) = Ok (map (stores h b n) (window_range n (odd h))).
Proof.
  intros Hb. apply mapM_ok. intros i I. rewrite window_range_odd in I. apply in_seq in I.
  unfold intensity_task. rewrite length_hanning. change (Z.of_nat (2 * h + 1)) with (odd h).
  rewrite (intensity_ok h b n i Hb) by lia. cbn [bind]. rewrite half_odd, position_ok by lia. cbn [bind vx vy vz fst snd].
  unfold stores. cbn [map]. rewrite Nat.add_0_r. reflexivity.
Qed.
Definition istart (h : nat) (b : bformat) (n : nat) (deal : list (list nat)) : machine :=
  start (3 * n) (fun _ i => nth i (map (stores h b n) (window_range n (odd h))) []) deal.
Lemma machine_ok h b n deal : long b n -> intensity_machine b n (odd h) deal = Ok (istart h b n deal).
Proof. intros Hb. unfold intensity_machine. rewrite tasks_ok by exact Hb. reflexivity. Qed.
Lemma nth_stores h b n i : (i < n - (2 * h + 1))%nat ->
  nth i (map (stores h b n) (window_range n (odd h))) [] = stores h b n i.
Proof. intros H. rewrite window_range_odd, nth_map_seq by exact H. reflexivity. Qed.
Lemma istart_storing h b n deal : dealt deal (n - (2 * h + 1)) -> storing (target h b n) (istart h b n deal).
Proof.
  intros D. split.
  - intros w i. unfold istart. rewrite prog_start. intros I. apply in_flat_map in I. destruct I as (t & T1 & T2).
    pose proof (dealt_in _ _ _ _ D T1) as T3. rewrite nth_stores in T2 by exact T3.
    unfold stores in T2. apply in_map_iff in T2. destruct T2 as (c & <- & C).
    exists (3 * (t + h) + c)%nat. rewrite target_at; [reflexivity|]. cbn in C. lia.
  - intros k K. unfold istart, start in K. cbn [cells] in K. rewrite repeat_length in K.
    unfold istart at 1, start. cbn [cells]. rewrite nth_repeat. intros N.
    pose proof (Nat.div_mod k 3) as DM. assert (k mod 3 < 3)%nat as M3 by (apply Nat.mod_upper_bound; lia).
    set (j := (k / 3)%nat) in *. set (c := (k mod 3)%nat) in *. specialize (DM ltac:(lia)).
    assert (target h b n k = component h b n j c) as Et by reflexivity. rewrite Et in *. clearbody j c.
    unfold component in N. destruct (Nat.leb_spec h j); [|cbn [andb] in N; congruence].
    destruct (Nat.ltb_spec (j + h + 1) n); [|cbn [andb] in N; congruence].
    assert (In (j - h)%nat (concat deal)) as I.
    { apply (Permutation_in _ (Permutation_sym D)). apply in_seq. lia. }
    apply in_concat in I. destruct I as (t & T1 & T2). apply In_nth with (d := []) in T1. destruct T1 as (w & W1 & W2).
    exists w. unfold istart. rewrite prog_start. apply in_flat_map. exists (j - h)%nat. split; [rewrite W2; exact T2|].
    rewrite nth_stores by lia. unfold stores. replace (j - h + h)%nat with j by lia. apply in_map_iff. exists c.
    split; [rewrite <- DM; reflexivity|].
    destruct c as [|[|[|c]]]; [left; reflexivity|right; left; reflexivity|right; right; left; reflexivity|lia].
Qed.
Lemma buffer_parallel h b n jobs deal sched de sc : long b n -> (2 <= jobs)%Z -> dealt deal (n - (2 * h + 1)) ->
  (forall m, intensity_machine b n (odd h) deal = Ok m -> finished (steps m sched)) ->
  intensity_buffer b n (odd h) jobs deal sched = intensity_buffer b n (odd h) 1 de sc.
Proof.
  intros Hb J D F. destruct (buffer_sequential h b n de sc Hb) as (buf & E & L & N). rewrite E.
  unfold intensity_buffer. destruct (Z.eqb_spec jobs 1); [lia|]. destruct (Z.ltb_spec jobs 1); [lia|].
  rewrite machine_ok in * by exact Hb. cbn [bind]. specialize (F _ eq_refl).
  pose proof (istart_storing h b n deal D) as S.
  assert (length (cells (istart h b n deal)) = (3 * n)%nat) as LI by (unfold istart, start; cbn [cells]; apply repeat_length).
  destruct (storing_steps _ sched _ S) as (_ & LS).
  f_equal. apply (nth_ext_list 0); [lia|]. intros k K. rewrite LS, LI in K.
  rewrite (storing_finished (target h b n)) by (assumption || lia).
  pose proof (Nat.div_mod k 3 ltac:(lia)) as DM. assert (k mod 3 < 3)%nat as M3 by (apply Nat.mod_upper_bound; lia).
  rewrite DM at 2. rewrite N by lia. reflexivity.
Qed.

(** ** Smoothing *)
Lemma nth_same a w j : (j < length a)%nat -> (1 <= length w)%nat ->
  nth j (convolve_same a w) 0 = smoothed w (length a) (fun i => nth i a 0) j.
Proof.
  intros J L. unfold convolve_same. destruct a as [|a0 a']; [cbn in J; lia|]. destruct w as [|w0 w']; [cbn in L; lia|].
  set (a := a0 :: a') in *. set (w := w0 :: w') in *. clearbody a w. clear a0 a' w0 w'.
  rewrite nth_firstn by exact J. rewrite nth_skipn, nth_convolve. unfold conv_sum, smoothed.
  rewrite rsum_swap. apply rsum_ext. intros m M.
  replace ((length w - 1) / 2 + j)%nat with (j + (length w - 1) / 2)%nat by lia. set (t := (j + (length w - 1) / 2)%nat).
  destruct (Nat.leb_spec m t) as [A|A]; cbn [andb].
  - destruct (Nat.ltb_spec (t - m) (length a)) as [B|B].
    + rewrite (rsum_single _ (t - m)%nat); [|exact B|].
      * replace (t - m + m)%nat with t by lia. rewrite Nat.eqb_refl. lra.
      * intros i I N. destruct (Nat.eqb_spec (i + m) t); [lia|reflexivity].
    + apply rsum_0. intros i I. destruct (Nat.eqb_spec (i + m) t); [lia|reflexivity].
  - apply rsum_0. intros i I. destruct (Nat.eqb_spec (i + m) t); [lia|reflexivity].
Qed.
Lemma length_same a w : (1 <= length w)%nat -> length (convolve_same a w) = length a.
Proof.
  intros L. unfold convolve_same. destruct a as [|a0 a']; [reflexivity|]. destruct w as [|w0 w']; [cbn in L; lia|].
  rewrite firstn_length, skipn_length. unfold convolve. rewrite map_length, seq_length. cbn [length].
  assert ((S (length w') - 1) / 2 <= length w')%nat; [|lia]. apply Nat.div_le_upper_bound; lia.
Qed.
Lemma hanning_weights s : np_hanning (odd s) = hann_weights s.
Proof.
  unfold hann_weights. destruct (Nat.eqb_spec s 0) as [->|N]; [reflexivity|].
  apply (nth_ext_list 0); rewrite length_hanning; [rewrite map_length, seq_length; reflexivity|].
  intros i I. rewrite nth_map_seq by exact I. apply nth_hanning; lia.
Qed.
Lemma smoothed_ext w n f g j : (forall i, (i < n)%nat -> f i = g i) -> smoothed w n f j = smoothed w n g j.
Proof.
  intros H. apply rsum_ext. intros m _. destruct (Nat.leb_spec m (j + (length w - 1) / 2)); cbn [andb]; [|reflexivity].
  destruct (Nat.ltb_spec (j + (length w - 1) / 2 - m) n); [|reflexivity]. rewrite H by assumption. reflexivity.
Qed.
Lemma smooth_ok n buf f so : length buf = (3 * n)%nat ->
  (forall j c, (j < n)%nat -> (c < 3)%nat -> nth (3 * j + c) buf 0 = f c j) ->
  (so <= 0 \/ exists s, so = odd s)%Z ->
  exists cs, smooth_columns n buf so = Ok cs /\ length (nth 0 cs []) = n /\
    forall j c, (j < n)%nat -> (c < 3)%nat -> nth j (nth c cs []) 0 = smoothing so n (f c) j.
Proof.
  intros L N S. unfold smooth_columns, smoothing.
  assert (forall c, length (column3 n buf c) = n) as LC by (intros; unfold column3; rewrite map_length, seq_length; reflexivity).
  assert (forall c, (c < 3)%nat -> forall j, (j < n)%nat -> nth j (column3 n buf c) 0 = f c j) as NC.
  { intros c C j J. unfold column3. rewrite nth_map_seq by exact J. apply N; assumption. }
  destruct (Z.ltb_spec 0 so) as [P|P].
  - destruct S as [S|[s ->]]; [lia|].
    replace (odd s mod 2 =? 1)%Z with true.
    2: { symmetry. apply Z.eqb_eq. symmetry. apply (Z.mod_unique _ _ (Z.of_nat s)); unfold odd; lia. }
    cbn [assert_ bind]. eexists. split; [reflexivity|]. cbn [map nth].
    rewrite length_same by (rewrite length_hanning; lia). split; [apply LC|].
    assert (Z.to_nat (odd s / 2) = s) as Hs.
    { replace (odd s / 2)%Z with (Z.of_nat s); [apply Nat2Z.id|]. apply (Z.div_unique _ _ _ 1); unfold odd; lia. }
    rewrite Hs. intros j c J C.
    assert (forall c, (c < 3)%nat -> nth j (convolve_same (column3 n buf c) (np_hanning (odd s))) 0 = smoothed (hann_weights s) n (f c) j) as G.
    { intros c' C'. rewrite nth_same by (rewrite ?LC, ?length_hanning; lia). rewrite LC, hanning_weights.
      apply smoothed_ext. intros i I. apply NC; assumption. }
    destruct c as [|[|[|c]]]; [| | |lia]; cbn [nth]; apply G; lia.
  - eexists. split; [reflexivity|]. cbn [map nth]. split; [apply LC|].
    intros j c J C. destruct c as [|[|[|c]]]; [| | |lia]; cbn [nth]; apply NC; lia.
Qed.

(** ** The function *)
Lemma odd_check h : (odd h mod 2 =? 1)%Z = true.
Proof. apply Z.eqb_eq. symmetry. apply (Z.mod_unique _ _ (Z.of_nat h)); unfold odd; lia. Qed.
Lemma intensity_ok_all bp a b n h so de sc : bandpass_all bp a = Ok b -> multi_len (base a) = Ok n -> long b n ->
  (so <= 0 \/ exists s, so = odd s)%Z ->
  exists out, pseudo_intensity bp a (odd h) so 1 de sc = Ok out /\ length out = n /\
    forall j, (j < n)%nat -> nth j out (0, None, 0) =
      cart2sph (smoothing so n (fun i => component h b n i 0) j) (smoothing so n (fun i => component h b n i 1) j)
               (smoothing so n (fun i => component h b n i 2) j) false true.
Proof.
  intros Eb En Hb S. unfold pseudo_intensity. rewrite odd_check. cbn [assert_ bind]. rewrite Eb. cbn [bind]. rewrite En. cbn [bind].
  destruct (buffer_sequential h b n de sc Hb) as (buf & E & L & N). rewrite E. cbn [bind].
  destruct (smooth_ok n buf (fun c j => component h b n j c) so L N S) as (cs & E2 & L2 & N2). rewrite E2. cbn [bind].
  rewrite L2. eexists. split; [reflexivity|]. rewrite map_length, seq_length. split; [reflexivity|].
  intros j J. rewrite nth_map_seq by exact J. rewrite !N2 by (assumption || lia). reflexivity.
Qed.
Theorem intensity_jobs bp a b n h so jobs deal sched de sc : bandpass_all bp a = Ok b -> multi_len (base a) = Ok n -> long b n ->
  (2 <= jobs)%Z -> dealt deal (n - (2 * h + 1)) ->
  (forall m, intensity_machine b n (odd h) deal = Ok m -> finished (steps m sched)) ->
  pseudo_intensity bp a (odd h) so jobs deal sched = pseudo_intensity bp a (odd h) so 1 de sc.
Proof.
  intros Eb En Hb J D F. unfold pseudo_intensity. rewrite Eb, En. cbn [bind].
  rewrite (buffer_parallel h b n jobs deal sched de sc Hb J D F). reflexivity.
Qed.
Theorem intensity_no_deadlock b n h deal m sched : long b n -> dealt deal (n - (2 * h + 1)) ->
  intensity_machine b n (odd h) deal = Ok m -> exists rest, finished (steps m (sched ++ rest)).
Proof.
  intros Hb D E. rewrite machine_ok in E by exact Hb. injection E as <-.
  destruct (storing_steps _ sched _ (istart_storing h b n deal D)) as (S & _).
  destruct (storing_can_finish _ _ _ (Nat.le_refl _) S) as [rest F]. exists rest. rewrite steps_app. exact F.
Qed.
