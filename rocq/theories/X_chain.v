(** Examples for the functions with band-pass filters. *)
From Coq Require Import Lra Lia.
From Verif Require Import Base BaseFacts M_utils M_sig M_sph0 M_sph M_decoder M_decoder2 M_decoder3 M_parsa2 M_parsa3 M_process3 S_process3 S_parsa2 M_zp S_zp S_process S_process4 S_butter S_chain P_utils M_process M_process4 P_sig X_parsa2 P_ff2 P_ff4 X_ff X_but P_chain1 P_chain2 P_chain3.
Open Scope R_scope.

(** a tone in the middle of the band, loudest at its middle sample *)
Definition tone (t : R) (n : nat) : list R := map (fun i => 1 * cos (t * INR i + - (t * INR n))) (seq 0 (2 * n + 1)).
Lemma tone_len t n : length (tone t n) = (2 * n + 1)%nat.
Proof. unfold tone. rewrite map_length. apply seq_length. Qed.
Lemma tone_nth t n i : (i < 2 * n + 1)%nat -> nth i (tone t n) 0 = 1 * cos (t * INR i + - (t * INR n)).
Proof. intros I. unfold tone. apply (nth_map_seq (fun i => 1 * cos (t * INR i + - (t * INR n)))). exact I. Qed.
Lemma tone_passes w1 w2 : 0 < w1 -> w1 < w2 -> w2 < 1 -> exists b a, butter_ba w1 w2 = Ok (b, a) /\ exists t n0, forall n, (n0 <= n)%nat -> (15 < 2 * n + 1)%nat /\ exists w, filtfilt b a (tone t n) = Ok w /\ 1 / 2 <= nth n w 0.
Proof.
  intros A B C. destruct (proj1 (f_defined _ _) (conj A (conj B C))) as (b & a & l & EB & ES). exists b, a. split; [exact EB|]. destruct (f_band w1 w2 A B C) as (_ & _ & _ & _ & _ & _ & t & _ & G & _). destruct (f_but_wave _ _ _ _ EB) as (K & rho & K0 & R0 & H).
  destruct (pow_lt_1_zero rho) with (y := 1 / (4 * (K + 1))) as (N & HN); [rewrite Rabs_pos_eq; lra|apply Rdiv_lt_0_compat; lra|]. exists t, (Nat.max N 8). intros n Hn. split; [lia|]. destruct (proj1 (f_but_filter _ _ _ _ _ EB ES) (tone t n)) as (w & W & _); [rewrite tone_len; lia|]. exists w. split; [exact W|].
  specialize (H 1 t (- (t * INR n)) (tone t n) w). rewrite tone_len in H. specialize (H (fun i I => tone_nth t n i I) W n ltac:(lia)). rewrite G, tone_nth in H by lia. replace (t * INR n + - (t * INR n)) with 0 in H by ring. rewrite cos_0, Rabs_R1 in H. replace (2 * n + 1 - 1 - n)%nat with n in H by lia. specialize (HN n ltac:(lia)). rewrite Rabs_pos_eq in HN by (apply pow_le; lra). assert (Q : K * rho ^ n <= 1 / 4). { apply Rle_trans with (K * (1 / (4 * (K + 1)))); [apply Rmult_le_compat_l; lra|]. apply (Rmult_le_reg_r (4 * (K + 1))); [lra|]. replace (K * (1 / (4 * (K + 1))) * (4 * (K + 1))) with K by (field; lra). lra. }
  unfold Rabs in H. destruct (Rcase_abs _) in H; lra.
Qed.
Lemma tone_one : exists b a x w n, butter_ba (2 * 1000 / 48000) (2 * 20000 / 48000) = Ok (b, a) /\ length x = (2 * n + 1)%nat /\ (15 < length x)%nat /\ filtfilt b a x = Ok w /\ 1 / 2 <= nth n w 0.
Proof. destruct (tone_passes (2 * 1000 / 48000) (2 * 20000 / 48000)) as (b & a & EB & t & n0 & H); [lra|lra|lra|]. destruct (H n0 (le_n _)) as (L & w & W & Q). exists b, a, (tone t n0), w, n0. rewrite tone_len. tauto. Qed.
Lemma loud_pos l n : 1 / 2 <= nth n l 0 -> loud l <> 0.
Proof.
  intros H Z. assert (N : (n < length l)%nat) by (destruct (Nat.lt_ge_cases n (length l)) as [K|K]; [exact K|rewrite nth_overflow in H by exact K; lra]). unfold loud in Z. assert (P : 0 < INR (length l)) by (apply lt_0_INR; lia).
  assert (S : nth n l 0 * nth n l 0 <= lsum (map (fun x => x * x) l)). { clear Z P H. revert n N. induction l as [|v l IH]; intros n N; [cbn in N; lia|]. pose proof (lsum_sq_ge0 l). destruct n as [|n]; cbn [nth map]; unfold lsum in *; cbn [fold_right map]; [nra|]. specialize (IH n ltac:(cbn in N; lia)). nra. }
  apply sqrt_eq_0 in Z; [|left; apply Rdiv_lt_0_compat; nra]. assert (0 < lsum (map (fun x => x * x) l) / INR (length l)) by (apply Rdiv_lt_0_compat; nra). lra.
Qed.
(** one direction; the right ear gets half of what the left ear gets *)
Lemma ex_ild : exists h b a l v, length (h_left h) = 1%nat /\ length (h_right h) = 1%nat /\ h_fs h = 48000%Z /\
  nth 0 (h_right h) [] = map (fun x => / 2 * x) (nth 0 (h_left h) []) /\ (15 < length (nth 0 (h_left h) []))%nat /\
  butter_ba (2 * 1000 / 48000) (2 * 20000 / 48000) = Ok (b, a) /\ filtfilt b a (nth 0 (h_left h) []) = Ok l /\ loud l <> 0 /\
  ilds_from_hrirs h (1000, 20000) true = Ok v /\ nth 0 v None = Some (20 * (ln 2 / ln 10)).
Proof.
  destruct tone_one as (b & a & x & w & n & EB & LX & L15 & W & Q). set (h := {| h_left := [x]; h_right := [map (fun y => / 2 * y) x]; h_azi := [0]; h_zen := [1]; h_fs := 48000%Z; num_grid_points := 1%nat; h_taps := length x |}). destruct (f_ild_defined h 1000 20000 true 1 eq_refl eq_refl) as (v & V); [unfold h; cbn [h_fs]; lra|unfold h; cbn [h_fs]; lra|unfold h; cbn [h_fs]; lra|intros i I; assert (i = 0)%nat as -> by lia; cbn [nth h h_left h_right]; rewrite map_length; lia|].
  exists h, b, a, w, v. do 5 (split; [reflexivity || exact L15|]). split; [exact EB|]. split; [exact W|]. split; [apply (loud_pos w n Q)|]. split; [exact V|]. rewrite (f_ild_copy h (/ 2) 1000 20000 1 v 0 b a w eq_refl eq_refl ltac:(lia) ltac:(lra) eq_refl EB W (loud_pos w n Q) V). f_equal. rewrite Rabs_pos_eq by lra. rewrite ln_Rinv by lra. unfold Rdiv. ring.
Qed.
Lemma ex_itd : exists rs h b a l v, length (h_left h) = 1%nat /\ length (h_right h) = 1%nat /\
  (forall x y, rs 12000%Z 48000%Z (nth 0 (h_left h) []) = Ok x -> rs 12000%Z 48000%Z (nth 0 (h_right h) []) = Ok y -> length x = length y) /\
  (forall c x y, rs 12000%Z 48000%Z x = Ok y -> rs 12000%Z 48000%Z (map (fun t => c * t) x) = Ok (map (fun t => c * t) y)) /\
  h_fs h = 12000%Z /\ butter_ba (2 * 1000 / 48000) (2 * 20000 / 48000) = Ok (b, a) /\ filtfilt b a (nth 0 (h_left h) []) = Ok l /\ (exists t, In t l /\ t <> 0) /\
  itds_from_hrirs rs h (1000, 20000) 4 = Ok v /\ nth 0 v 1 = 0.
Proof.
  destruct tone_one as (b & a & x & w & n & EB & LX & L15 & W & Q). set (h := {| h_left := [x]; h_right := [map (fun y => 3 * y) x]; h_azi := [0]; h_zen := [1]; h_fs := 12000%Z; num_grid_points := 1%nat; h_taps := length x |}). set (rs := fun (_ _ : Z) (l : list R) => Ok l).
  destruct (f_itd_defined rs h 1000 20000 4 1 48000 eq_refl eq_refl eq_refl) as (v & V); [lra|lra|lra|intros i I; assert (i = 0)%nat as -> by lia; exists x, (map (fun y => 3 * y) x); unfold rs, h; cbn [nth h_left h_right]; rewrite map_length; tauto|].
  assert (EQ : forall i x y, (i < 1)%nat -> rs (h_fs h) 48000%Z (nth i (h_left h) []) = Ok x -> rs (h_fs h) 48000%Z (nth i (h_right h) []) = Ok y -> length x = length y). { intros i p q I. assert (i = 0)%nat as -> by lia. unfold rs, h. cbn [nth h_left h_right]. intros [= <-] [= <-]. rewrite map_length. reflexivity. }
  assert (HOM : forall c x y, rs (h_fs h) 48000%Z x = Ok y -> rs (h_fs h) 48000%Z (map (fun t => c * t) x) = Ok (map (fun t => c * t) y)) by (unfold rs; intros c p q [= <-]; reflexivity).
  assert (NZ : exists t, In t w /\ t <> 0). { exists (nth n w 0). split; [apply nth_In; rewrite (ff_len _ _ _ _ W); lia|lra]. }
  exists rs, h, b, a, w, v. do 2 (split; [reflexivity|]). split; [exact (fun p q => EQ 0%nat p q ltac:(lia))|]. split; [exact HOM|]. split; [reflexivity|]. split; [exact EB|]. split; [exact W|]. split; [exact NZ|]. split; [exact V|].
  pose proof V as V'. apply (f_itd rs h 1000 20000 4 1 v 48000 eq_refl eq_refl eq_refl EQ) in V'. destruct V' as (b' & a' & _ & LV & _). rewrite (nth_indep v 1 0) by lia. apply (f_itd_copy rs h 1000 20000 4 1 v 48000 0 3 x b a w eq_refl eq_refl eq_refl EQ HOM V); try assumption; [lia|lra|reflexivity|reflexivity].
Qed.
Lemma ex_bp : exists s n sig sig' b a out, multi_len (base s) = Ok (2 * n + 1)%nat /\ mu_fs (base s) = 48000%Z /\ plane_wave s sig 1 (sph2cart 1 (PI / 2) 1) /\ long (bands s) (2 * n + 1) /\ visited (2 * n + 1) 1 n /\
  butter_ba (2 * 1000 / 48000) (2 * 20000 / 48000) = Ok (b, a) /\ filtfilt b a sig = Ok sig' /\
  pseudo_intensity_bp (1000, 20000) s 3 0 1 [] [] = Ok out /\ exists r, nth n out (0, None, 0) = (1, Some (PI / 2), r) /\ / 4 <= r.
Proof.
  destruct tone_one as (b & a & x & w & n & EB & LX & L15 & W & Q). set (u := sph2cart 1 (PI / 2) 1).
  set (s := AmbiB (Multi [Mono x 48000%Z] 48000%Z 1%nat) (map (fun y => 1 * y) x) (map (fun y => vx u * y) x) (map (fun y => vy u * y) x) (map (fun y => vz u * y) x)).
  assert (EN : multi_len (base s) = Ok (2 * n + 1)%nat) by (cbn; unfold mono_len; cbn; rewrite LX; reflexivity). assert (PW : plane_wave s x 1 u) by (repeat split). assert (LB : long (bands s) (2 * n + 1)) by (unfold long, bands; cbn [bW bX bY bZ s aW aX aY aZ]; rewrite !map_length; lia). assert (V : visited (2 * n + 1) 1 n) by (unfold visited; lia).
  destruct (f_bp_defined s (2 * n + 1) 1 0 [] [] 1000 20000) as (out & E & L); [lra|lra|cbn; lra|exact EN|lia|lia|left; lia|exact LB|].
  exists s, n, x, w, b, a, out. split; [exact EN|]. split; [reflexivity|]. split; [exact PW|]. split; [exact LB|]. split; [exact V|]. split; [exact EB|]. split; [exact W|]. split; [exact E|]. pose proof (masked_centre 1 (2 * n + 1) w n ltac:(lia) V) as M.
  exists (1 * smoothing 0 (2 * n + 1) (masked 1 (2 * n + 1) w w) n). change (smoothing 0 (2 * n + 1) (masked 1 (2 * n + 1) w w) n) with (masked 1 (2 * n + 1) w w n). split; [|nra].
  pose proof PI_RGT_0. pose proof PI_ineq 0 as P. unfold tg_alt, PI_tg in P. cbn in P.
  apply (f_bp_direction s (2 * n + 1) 1 0 x w 1 1 (PI / 2) [] [] out n 1000 20000 b a); try assumption; [lia|lia|left; lia|lra|lra|lia|].
  change (smoothing 0 (2 * n + 1) (masked 1 (2 * n + 1) w w) n) with (masked 1 (2 * n + 1) w w n). assert (10 / 10 ^ 15 <= / 4) by lra. nra.
Qed.
