(** What scipy's minimum_phase returns. *)
From Coq Require Import Lra Lia.
From Verif Require Import Base BaseFacts M_utils M_sig M_process M_sph M_parsa3 M_decoder4 M_minph S_process S_decoder3 S_magls S_ctf S_minph P_utils P_sig P_magls4 P_magls5 P_ctf5 P_ctf6 P_minph1.
Open Scope R_scope.

Lemma length_ifft Y : length (ifft_re Y) = length Y.
Proof. unfold ifft_re. rewrite map_length, seq_length. reflexivity. Qed.
Lemma ifft_at Y t : (t < length Y)%nat -> nth t (ifft_re Y) 0 = / INR (length Y) * rsum (length Y) (fun k =>
  fst (nth k Y (0, 0)) * cos (2 * PI * INR (k * t) / INR (length Y)) - snd (nth k Y (0, 0)) * sin (2 * PI * INR (k * t) / INR (length Y))).
Proof. intros T. unfold ifft_re. rewrite nth_map_seq by exact T. reflexivity. Qed.
Lemma lifted_pos n h m k : 0 < m -> 0 < lifted n h m k.
Proof. intros P. unfold lifted, modulus. pose proof (sqrt_pos (fst (dft n h k) ^ 2 + snd (dft n h k) ^ 2)). assert (0 < m / 10 ^ 7) by (apply Rdiv_lt_0_compat; lra). lra. Qed.
Lemma ln_sqrt x : 0 < x -> ln (sqrt x) = ln x * (1 / 2).
Proof. intros P. rewrite <- (sqrt_sqrt x) at 2 by lra. rewrite ln_mult by (apply sqrt_lt_R0; exact P). field. Qed.
Lemma length_cepstrum mag m : length (minph_cepstrum mag m) = length mag.
Proof. unfold minph_cepstrum. rewrite length_ifft, map_length. reflexivity. Qed.
Lemma cepstrum_at h n m t : 0 < m -> (t < n)%nat -> nth t (minph_cepstrum (map cabs (fft h n)) m) 0 = cepstrum n h m t.
Proof.
  intros P T. unfold minph_cepstrum. rewrite ifft_at by (rewrite map_length, length_mag; exact T). rewrite map_length, length_mag. unfold cepstrum. f_equal. apply rsum_ext. intros k K.
  rewrite (nth_map_in _ (map cabs (fft h n)) k (0, 0) 0) by (rewrite length_mag; exact K). cbn [fst snd]. rewrite mag_at by exact K. rewrite ln_sqrt by (apply lifted_pos, P). unfold lifted. rewrite mult_INR.
  replace (modulus (dft n h k) + m / 10 ^ 7) with (modulus (dft n h k) + 1 / 10000000 * m) by field. replace (2 * PI * (INR k * INR t)) with (2 * PI * INR k * INR t) by ring. ring.
Qed.
Lemma length_window newer len n : length (minph_window newer len n) = n.
Proof. unfold minph_window. destruct (Nat.odd _); rewrite ?length_upd, map_length, seq_length; reflexivity. Qed.
Lemma window_at newer len n t : (3 <= len)%nat -> Nat.even n = true -> (len < n)%nat -> (t < n)%nat -> nth t (minph_window newer len n) 0 = share newer len n t.
Proof.
  intros L E LN T. unfold minph_window, share. destruct newer.
  - rewrite <- Nat.negb_even, E. cbn [negb]. rewrite nth_map_seq by exact T. destruct (Nat.eqb_spec t 0); [reflexivity|]. apply Nat.even_spec in E. destruct E as [q ->]. rewrite Nat.mul_comm, Nat.div_mul by lia.
    destruct (Nat.ltb_spec t q), (Nat.ltb_spec (2 * t) (q * 2)); reflexivity || lia.
  - pose proof (Nat.div_mod len 2 ltac:(lia)) as D. pose proof (Nat.mod_upper_bound len 2 ltac:(lia)) as B. pose proof (Nat.div_mod (len + 1) 2 ltac:(lia)) as D1. pose proof (Nat.mod_upper_bound (len + 1) 2 ltac:(lia)) as B1.
    destruct (Nat.odd len) eqn:O.
    + apply Nat.odd_spec in O. destruct O as [q O]. destruct (Nat.eq_dec t ((len + 1) / 2)) as [->|NE].
      * rewrite nth_upd_same by (rewrite map_length, seq_length; exact T). destruct (Nat.eqb_spec ((len + 1) / 2) 0); [lia|]. destruct (Nat.ltb_spec (2 * ((len + 1) / 2)) len); [lia|].
        destruct (Nat.eqb_spec (2 * ((len + 1) / 2)) (len + 1)); [reflexivity|lia].
      * rewrite nth_upd_other by auto. rewrite nth_map_seq by exact T. destruct (Nat.eqb_spec t 0); [reflexivity|]. destruct (Nat.ltb_spec t ((len + 1) / 2)), (Nat.ltb_spec (2 * t) len); try reflexivity; try lia.
        destruct (Nat.eqb_spec (2 * t) (len + 1)); [lia|reflexivity].
    + rewrite <- Nat.negb_even in O. apply Bool.negb_false_iff in O. apply Nat.even_spec in O. destruct O as [q O]. rewrite nth_map_seq by exact T. destruct (Nat.eqb_spec t 0); [reflexivity|].
      destruct (Nat.ltb_spec t ((len + 1) / 2)), (Nat.ltb_spec (2 * t) len); try reflexivity; try lia. destruct (Nat.eqb_spec (2 * t) (len + 1)); [lia|reflexivity].
Qed.
Lemma zip_at (a b : list R) t : (t < length a)%nat -> length b = length a -> nth t (zip_mul a b) 0 = nth t a 0 * nth t b 0.
Proof. intros T L. unfold zip_mul. rewrite (nth_map_in _ (combine a b) t 0 (0, 0)) by (rewrite combine_length; lia). rewrite combine_nth by (symmetry; exact L). reflexivity. Qed.

Lemma full_ok newer h m : (3 <= length h)%nat -> least_gain (minph_nfft (length h)) h m ->
  exists u, minph_full newer h = Ok u /\ minimum_phase_of newer h (minph_nfft (length h)) u.
Proof.
  intros L G. pose proof (size_ok (length h) ltac:(lia)) as Z. destruct (size_even (length h) _ ltac:(lia) Z) as (q & Q & EN). destruct Z as [_ Z]. set (n := minph_nfft (length h)) in *.
  unfold minph_full. fold n. rewrite (proj2 (least_ok h n m) G). cbn [bind]. eexists. split; [reflexivity|]. set (c := minph_cepstrum _ m). set (f := zip_mul c _).
  assert (Lc : length c = n) by (unfold c; rewrite length_cepstrum; apply length_mag).
  assert (Lf : length f = n) by (unfold f, zip_mul; rewrite map_length, combine_length, length_window; lia).
  assert (LY : length (map np_cexp (fft f n)) = n) by (rewrite map_length; apply length_fft).
  exists m, f. split; [exact G|]. split; [rewrite length_ifft; exact LY|]. split; [exact Lf|]. split.
  - intros t T. unfold f. rewrite zip_at by (rewrite ?length_window, ?Lc; lia). unfold c. rewrite cepstrum_at by (exact T || apply G). rewrite (window_at newer (length h) n t) by (lia || (rewrite EN; apply Nat.even_spec; eexists; reflexivity)). ring.
  - intros k K. clearbody f. clear Lc. clear c. clearbody n. subst n. apply (dft_back q Q (fun k => cexp (dft (2 * q) f k))); [apply herm_exp, herm_dft; exact Q|exact K|].
    unfold C2 in *. intros t T. rewrite ifft_at by (rewrite LY; exact T). rewrite LY. f_equal. apply rsum_ext. intros j J.
    assert (V : @nth (R * R) j (map np_cexp (fft f (2 * q))) (0, 0) = cexp (dft (2 * q) f j)) by (etransitivity; [exact (nth_map_in np_cexp (fft f (2 * q)) j (0, 0) (0, 0) ltac:(rewrite length_fft; exact J))|]; rewrite fft_at by exact J; reflexivity). unfold C2 in *. rewrite V. reflexivity.
Qed.
(** a filter that is not 0 has a gain that is not 0 *)
Lemma dft_zero_signal m x : (1 <= m)%nat -> (length x <= 2 * m)%nat -> (forall k, (k < 2 * m)%nat -> modulus (dft (2 * m) x k) = 0) -> forall t, nth t x 0 = 0.
Proof.
  intros M L Z t. assert (Z' : forall k, (k < 2 * m)%nat -> dft (2 * m) x k = (0, 0)).
  { intros k K. specialize (Z k K). unfold modulus in Z. apply sqrt_eq_0 in Z; [|nra]. destruct (dft (2 * m) x k) as [a b]. cbn [fst snd] in Z. assert (a = 0) by nra. assert (b = 0) by nra. congruence. }
  destruct (Nat.lt_ge_cases t (2 * m)) as [T|T]; [|apply nth_overflow; lia].
  set (y := map (fun t => nth t x 0) (seq 0 (2 * m))). assert (Ly : length y = (2 * m)%nat) by (unfold y; rewrite map_length, seq_length; reflexivity).
  assert (Y : forall t, (t < 2 * m)%nat -> nth t y 0 = nth t x 0) by (intros s S; unfold y; rewrite nth_map_seq by exact S; reflexivity).
  rewrite <- Y by exact T. assert (D : dft (2 * m) y = dft (2 * m) x).
  { unfold dft. apply FunctionalExtensionality.functional_extensionality. intros k. f_equal; [|f_equal]; apply rsum_ext; intros j J; rewrite Y by exact J; reflexivity. }
  assert (HS : spectrum_of y (map (fun _ => (0, 0)) (seq 0 (m + 1)))).
  { split; [rewrite map_length, seq_length, Ly, Nat.mul_comm, Nat.div_mul by lia; reflexivity|]. intros k K. rewrite Ly in *. rewrite (Nat.mul_comm 2 m), Nat.div_mul in K by lia. rewrite nth_map_seq by lia. rewrite D, Z' by lia. reflexivity. }
  rewrite <- (irfft_spectrum y _ ltac:(rewrite Ly; apply Nat.even_spec; eexists; reflexivity) ltac:(lia) HS).
  unfold irfft. rewrite map_length, seq_length. replace (m + 1 - 1)%nat with m by lia. rewrite nth_map_seq by exact T.
  rewrite !nth_map_seq by lia. cbn [fst]. rewrite rsum_0; [ring|]. intros i I. rewrite !nth_map_seq by lia. cbn [fst snd]. ring.
Qed.
Lemma exists_least n h : (exists k, (k < n)%nat /\ 0 < modulus (dft n h k)) -> exists m, least_gain n h m.
Proof.
  intros (k & K & P). destruct (np_min (filter (Rltb 0) (map cabs (fft h n)))) as [m|e] eqn:E; [exists m; apply least_ok, E|]. exfalso. destruct (filter (Rltb 0) (map cabs (fft h n))) as [|a l] eqn:F; [|discriminate].
  assert (I : In (modulus (dft n h k)) []) by (rewrite <- F; apply filter_In; split; [rewrite <- mag_at by exact K; apply nth_In; rewrite length_mag; exact K|apply Rltb_true; exact P]). destruct I.
Qed.
Theorem minimum_ok newer h : (3 <= length h)%nat -> (exists t, nth t h 0 <> 0) ->
  exists n u, transform_size (length h) n /\ minimum_phase_of newer h n u /\ minimum_phase newer h = Ok (firstn (length h / 2 + length h mod 2) u).
Proof.
  intros L (t & T). pose proof (size_ok (length h) ltac:(lia)) as Z. destruct (size_even (length h) _ ltac:(lia) Z) as (q & Q & EN). set (n := minph_nfft (length h)) in *.
  assert (EX : exists m, least_gain n h m).
  { apply exists_least. apply Classical_Prop.NNPP. intros N. apply T. rewrite EN in N. apply (dft_zero_signal q h Q); [destruct Z as [_ Z]; lia|]. intros k K.
    destruct (Rle_lt_dec (modulus (dft (2 * q) h k)) 0) as [C|C]; [apply Rle_antisym; [exact C|apply sqrt_pos]|]. exfalso. apply N. eauto. }
  destruct EX as [m G]. destruct (full_ok newer h m L G) as (u & E & H). exists n, u. split; [exact Z|]. split; [exact H|]. unfold minimum_phase. destruct (Nat.leb_spec (length h) 2); [lia|]. rewrite E. cbn [bind]. f_equal.
  destruct H as (m' & f & _ & LU & _). unfold slice_to. rewrite norm_idx_nat; [reflexivity|]. rewrite LU. fold n. destruct Z as [_ Z]. pose proof (Nat.div_mod (length h) 2 ltac:(lia)). lia.
Qed.
Theorem minimum_errors newer h : (length h <= 2)%nat \/ (forall t, nth t h 0 = 0) -> minimum_phase newer h = Err ValueError.
Proof.
  intros H. unfold minimum_phase. destruct (Nat.leb_spec (length h) 2) as [C|C]; [reflexivity|]. destruct H as [H|H]; [lia|]. unfold minph_full. set (n := minph_nfft (length h)).
  replace (filter (Rltb 0) (map cabs (fft h n))) with (@nil R); [reflexivity|]. symmetry. destruct (filter (Rltb 0) (map cabs (fft h n))) as [|y l] eqn:F; [reflexivity|]. exfalso.
  assert (I : In y (filter (Rltb 0) (map cabs (fft h n)))) by (rewrite F; left; reflexivity). apply filter_In in I. destruct I as [I P]. apply Rltb_true in P. apply (In_nth _ _ 0) in I. destruct I as (k & K & E). rewrite length_mag in K.
  rewrite mag_at in E by exact K. subst y. unfold modulus, dft in P. cbn [fst snd] in P. rewrite !rsum_0 in P by (intros; rewrite H; ring). replace (0 ^ 2 + (- 0) ^ 2) with 0 in P by ring. rewrite sqrt_0 in P. lra.
Qed.
