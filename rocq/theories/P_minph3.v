(** Gains, uniqueness and invariances of minimum phase filters. *)
From Coq Require Import Lra Lia.
From Verif Require Import Base BaseFacts M_utils M_sig M_process M_sph M_parsa3 M_decoder4 M_minph S_process S_decoder3 S_magls S_ctf S_minph P_utils P_sig P_magls4 P_magls5 P_ctf5 P_ctf6 P_minph1 P_minph2.
Open Scope R_scope.

Lemma dft_inj m x y : (1 <= m)%nat -> length x = (2 * m)%nat -> length y = (2 * m)%nat -> (forall k, (k < 2 * m)%nat -> dft (2 * m) x k = dft (2 * m) y k) -> x = y.
Proof.
  intros M Lx Ly E. set (X := map (fun k => dft (2 * m) x k) (seq 0 (m + 1))).
  assert (H : forall z, length z = (2 * m)%nat -> (forall k, (k < 2 * m)%nat -> dft (2 * m) x k = dft (2 * m) z k) -> irfft X = z).
  { intros z Lz Ez. apply irfft_spectrum; [rewrite Lz; apply Nat.even_spec; eexists; reflexivity|lia|]. split; [unfold X; rewrite map_length, seq_length, Lz, Nat.mul_comm, Nat.div_mul by lia; reflexivity|].
    intros k K. rewrite Lz in *. rewrite (Nat.mul_comm 2 m), Nat.div_mul in K by lia. unfold X. rewrite nth_map_seq by lia. apply Ez. lia. }
  rewrite <- (H x Lx) by reflexivity. apply (H y Ly E).
Qed.
Theorem minimum_unique newer h n u u' : (2 <= length h)%nat -> transform_size (length h) n -> minimum_phase_of newer h n u -> minimum_phase_of newer h n u' -> u = u'.
Proof.
  intros L Z (m & f & G & Lu & Lf & F & D) (m' & f' & G' & Lu' & Lf' & F' & D'). destruct (size_even _ _ L Z) as (q & Q & ->).
  rewrite <- (least_unique _ _ _ _ G G') in F'. assert (EF : f = f') by (apply (nth_ext _ _ 0 0); [congruence|]; intros t T; rewrite F, F' by lia; reflexivity). subst f'.
  apply (dft_inj q); [exact Q|exact Lu|exact Lu'|]. intros k K. rewrite D, D' by exact K. reflexivity.
Qed.

Lemma cos_form k t n : 2 * PI * INR k * INR t / INR n = 2 * PI * INR (k * t) / INR n.
Proof. rewrite mult_INR. f_equal. ring. Qed.
(** the transform of the cepstrum *)
Lemma lifted_mirror q h m k : (1 <= q)%nat -> (k <= q)%nat -> lifted (2 * q) h m (2 * q - k) = lifted (2 * q) h m k.
Proof. intros Q K. unfold lifted. rewrite (dft_mirror q Q) by lia. rewrite modulus_conj. reflexivity. Qed.
Lemma cepstrum_back q h m k : (1 <= q)%nat -> (k < 2 * q)%nat ->
  rsum (2 * q) (fun t => cepstrum (2 * q) h m t * cos (2 * PI * INR (t * k) / INR (2 * q))) = ln (sqrt (lifted (2 * q) h m k)).
Proof.
  intros Q K. set (x := map (cepstrum (2 * q) h m) (seq 0 (2 * q))).
  pose proof (dft_back q Q (fun k => (ln (sqrt (lifted (2 * q) h m k)), 0)) x k) as D. apply (f_equal fst) in D; [|apply herm_real; intros j J; rewrite lifted_mirror by assumption; reflexivity|exact K|].
  - cbn [fst] in D. rewrite <- D. unfold dft. cbn [fst]. apply rsum_ext. intros t T. unfold x. rewrite nth_map_seq by exact T. reflexivity.
  - intros t T. unfold x. rewrite nth_map_seq by exact T. unfold cepstrum. f_equal. apply rsum_ext. intros j _. cbn [fst snd]. rewrite cos_form. ring.
Qed.
Lemma cepstrum_mirror q h m t : (1 <= q)%nat -> (t <= 2 * q)%nat -> cepstrum (2 * q) h m (2 * q - t) = cepstrum (2 * q) h m t.
Proof. intros Q T. unfold cepstrum. f_equal. apply rsum_ext. intros k _. rewrite !cos_form, (Nat.mul_comm k (2 * q - t)), (Nat.mul_comm k t). rewrite (cos_mirror q Q) by exact T. reflexivity. Qed.
Theorem gain_newer h n u : (2 <= length h)%nat -> transform_size (length h) n -> minimum_phase_of true h n u ->
  exists m, least_gain n h m /\ forall k, (k < n)%nat ->
    modulus (dft n u k) = sqrt (lifted n h m k) * exp (- ((-1) ^ k * cepstrum n h m (n / 2))).
Proof.
  intros L Z (m & f & G & Lu & Lf & F & D). exists m. split; [exact G|]. intros k K. destruct (size_even _ _ L Z) as (q & Q & ->). assert (H2 : (2 * q / 2)%nat = q) by (rewrite Nat.mul_comm; apply Nat.div_mul; lia). rewrite H2.
  rewrite D by exact K. rewrite modulus_exp. set (c := cepstrum (2 * q) h m).
  assert (S0 : 0 < sqrt (lifted (2 * q) h m k)) by (apply sqrt_lt_R0, lifted_pos, G).
  rewrite <- (exp_ln _ S0) at 1. rewrite <- exp_plus. f_equal. rewrite <- (cepstrum_back q h m k Q K). fold c.
  rewrite (fold_even q (fun t => c t * cos (2 * PI * INR (t * k) / INR (2 * q))) Q) by (intros t T; unfold c; rewrite cepstrum_mirror by lia; rewrite (cos_mirror q Q) by lia; reflexivity).
  unfold dft. cbn [fst]. rewrite (rsum_ext (2 * q) _ (fun t => share true (length h) (2 * q) t * c t * cos (2 * PI * INR (t * k) / INR (2 * q)))) by (intros t T; rewrite F by exact T; reflexivity).
  replace (rsum (2 * q)) with (rsum (q + q)) by (f_equal; lia). rewrite rsum_app.
  rewrite (rsum_0 q (fun i => share true (length h) (2 * q) (q + i) * c (q + i)%nat * cos (2 * PI * INR ((q + i) * k) / INR (2 * q)))).
  2: { intros i I. unfold share. destruct (Nat.eqb_spec (q + i) 0); [lia|]. destruct (Nat.ltb_spec (2 * (q + i)) (2 * q)); [lia|]. ring. }
  assert (Eq : q = S (q - 1)) by lia. rewrite Eq at 1. rewrite rsum_shift. rewrite (rsum_ext (q - 1) _ (fun i => 2 * (c (S i) * cos (2 * PI * INR (S i * k) / INR (2 * q))))).
  - rewrite pow_m1_cos. replace (2 * PI * INR (q * k) / INR (2 * q)) with (PI * INR k); [unfold share; cbn [Nat.eqb]; ring|]. rewrite !mult_INR. simpl (INR 2). field. apply not_0_INR. lia.
  - intros i I. unfold share. cbn [Nat.eqb]. destruct (Nat.ltb_spec (2 * S i) (2 * q)); [ring|lia].
Qed.

(** ** filters with constant gains *)
Lemma dft_pulse n a k : (0 < n)%nat -> dft n (first_pulse n a) k = (a, 0).
Proof.
  intros N. unfold dft, first_pulse. f_equal.
  - rewrite (rsum_single n 0) by (exact N || (intros j J NE; rewrite nth_map_seq by exact J; destruct (Nat.eqb_spec j 0); [lia|ring])). rewrite nth_map_seq by exact N. cbn [Nat.eqb Nat.mul INR]. rewrite Rmult_0_r. unfold Rdiv. rewrite Rmult_0_l, cos_0. ring.
  - rewrite rsum_0; [ring|]. intros j J. rewrite nth_map_seq by exact J. destruct (Nat.eqb_spec j 0) as [->|]; [|ring]. cbn [Nat.mul INR]. rewrite Rmult_0_r. unfold Rdiv. rewrite Rmult_0_l, sin_0. ring.
Qed.
Lemma length_pulse n a : length (first_pulse n a) = n.
Proof. unfold first_pulse. rewrite map_length, seq_length. reflexivity. Qed.
Lemma pulse_at n a t : (t < n)%nat -> nth t (first_pulse n a) 0 = if Nat.eqb t 0 then a else 0.
Proof. intros T. unfold first_pulse. rewrite nth_map_seq by exact T. reflexivity. Qed.
Lemma cos_sum_nat n t : (0 < n)%nat -> (t < n)%nat -> rsum n (fun k => cos (2 * PI * INR k * INR t / INR n)) = if Nat.eqb t 0 then INR n else 0.
Proof.
  intros N T. rewrite (rsum_ext n _ (fun k => cos (2 * PI * INR k * IZR (Z.of_nat t) / INR n))) by (intros; rewrite <- INR_IZR_INZ; reflexivity). rewrite cos_sum by exact N. rewrite Z.mod_small by lia.
  destruct (Nat.eqb_spec t 0), (Z.eqb_spec (Z.of_nat t) 0); reflexivity || lia.
Qed.
Lemma share_0 newer len n : share newer len n 0 = 1.
Proof. reflexivity. Qed.
Lemma firstn_pulse k n a : (k <= n)%nat -> firstn k (first_pulse n a) = first_pulse k a.
Proof.
  intros K. apply (nth_ext _ _ 0 0); [rewrite firstn_length, !length_pulse; lia|]. intros t T. rewrite firstn_length, length_pulse in T. rewrite nth_firstn by lia. rewrite !pulse_at by lia. reflexivity.
Qed.
Lemma flat_response newer h n a : (0 < n)%nat -> 0 < a -> (forall k, (k < n)%nat -> modulus (dft n h k) = a) -> minimum_phase_of newer h n (first_pulse n (sqrt (a * (1 + 1 / 10 ^ 7)))).
Proof.
  intros N P E. set (s := sqrt (a * (1 + 1 / 10 ^ 7))). assert (Ps : 0 < s) by (apply sqrt_lt_R0; nra). exists a, (first_pulse n (ln s)). split; [|split; [|split; [|split]]].
  - split; [exact P|]. split; [exists 0%nat; auto|]. intros k K _. rewrite E by exact K. lra.
  - apply length_pulse.
  - apply length_pulse.
  - intros t T. rewrite pulse_at by exact T. unfold cepstrum. rewrite (rsum_ext n _ (fun k => ln s * cos (2 * PI * INR k * INR t / INR n))).
    + rewrite rsum_scal, cos_sum_nat by assumption. destruct (Nat.eqb_spec t 0) as [->|]; [rewrite share_0|]; field; apply not_0_INR; lia.
    + intros k K. unfold lifted. rewrite E by exact K. unfold s. replace (a + a / 10 ^ 7) with (a * (1 + 1 / 10 ^ 7)) by field. reflexivity.
  - intros k K. rewrite !dft_pulse by exact N. unfold cexp. cbn [fst snd]. rewrite exp_ln, cos_0, sin_0 by exact Ps. f_equal; ring.
Qed.
Lemma n_pos len n : (2 <= len)%nat -> transform_size len n -> (0 < n)%nat.
Proof. intros L [_ B]. lia. Qed.
Lemma flat_nonzero h n a : 0 < a -> (0 < n)%nat -> (forall k, (k < n)%nat -> modulus (dft n h k) = a) -> exists t, nth t h 0 <> 0.
Proof.
  intros P N E. apply Classical_Prop.NNPP. intros C. assert (Z : forall t, nth t h 0 = 0) by (intros t; apply Classical_Prop.NNPP; intros X; apply C; eauto). specialize (E 0%nat N). unfold modulus, dft in E. cbn [fst snd] in E.
  rewrite !rsum_0 in E by (intros; rewrite Z; ring). replace (0 ^ 2 + (- 0) ^ 2) with 0 in E by ring. rewrite sqrt_0 in E. lra.
Qed.
Theorem minimum_value newer h n u : (3 <= length h)%nat -> transform_size (length h) n -> (exists t, nth t h 0 <> 0) -> minimum_phase_of newer h n u ->
  minimum_phase newer h = Ok (firstn (length h / 2 + length h mod 2) u).
Proof.
  intros L Z NZ H. destruct (minimum_ok newer h L NZ) as (n' & u' & Z' & H' & E). rewrite <- (size_unique (length h) n n' ltac:(lia) Z Z') in H'. rewrite E. rewrite (minimum_unique newer h n u u' ltac:(lia) Z H H'). reflexivity.
Qed.
Theorem minimum_flat newer h n a : (3 <= length h)%nat -> transform_size (length h) n -> 0 < a -> (forall k, (k < n)%nat -> modulus (dft n h k) = a) ->
  minimum_phase newer h = Ok (first_pulse (length h / 2 + length h mod 2) (sqrt (a * (1 + 1 / 10 ^ 7)))).
Proof.
  intros L Z P E. pose proof (n_pos (length h) n ltac:(lia) Z) as N. rewrite (minimum_value newer h n _ L Z (flat_nonzero h n a P N E) (flat_response newer h n a N P E)). f_equal. apply firstn_pulse.
  destruct Z as [_ Z]. pose proof (Nat.div_mod (length h) 2 ltac:(lia)). lia.
Qed.

(** ** what it depends on *)
Lemma of_modulus newer h h' n u : length h' = length h -> (forall k, (k < n)%nat -> modulus (dft n h' k) = modulus (dft n h k)) -> minimum_phase_of newer h n u -> minimum_phase_of newer h' n u.
Proof.
  intros L E (m & f & (P & (k0 & K0 & E0) & LG) & Lu & Lf & F & D). exists m, f. split; [|split; [exact Lu|split; [exact Lf|split; [|exact D]]]].
  - split; [exact P|]. split; [exists k0; rewrite E by exact K0; auto|]. intros k K. rewrite E by exact K. auto.
  - intros t T. rewrite F, L by exact T. f_equal. unfold cepstrum. f_equal. apply rsum_ext. intros k K. unfold lifted. rewrite E by exact K. reflexivity.
Qed.
Lemma nonzero_gain h n : (2 <= length h)%nat -> transform_size (length h) n -> ((exists t, nth t h 0 <> 0) <-> exists k, (k < n)%nat /\ modulus (dft n h k) <> 0).
Proof.
  intros L Z. destruct (size_even _ _ L Z) as (q & Q & ->). destruct Z as [_ Z]. split; intros (t & T); apply Classical_Prop.NNPP; intros N.
  - apply T. apply (dft_zero_signal q h Q); [lia|]. intros k K. apply Classical_Prop.NNPP. intros X. apply N. eauto.
  - destruct T as [K T]. apply T. assert (O : forall t, nth t h 0 = 0) by (intros s; apply Classical_Prop.NNPP; intros X; apply N; eauto). unfold modulus, dft. cbn [fst snd].
    rewrite !rsum_0 by (intros; rewrite O; ring). replace (0 ^ 2 + (- 0) ^ 2) with 0 by ring. apply sqrt_0.
Qed.
Theorem same_gains newer h h' n : transform_size (length h) n -> length h' = length h -> (forall k, (k < n)%nat -> modulus (dft n h' k) = modulus (dft n h k)) -> minimum_phase newer h' = minimum_phase newer h.
Proof.
  intros Z L E. destruct (Nat.le_gt_cases (length h) 2) as [C|C]; [rewrite !minimum_errors by (left; lia); reflexivity|].
  destruct (Classical_Prop.classic (exists t, nth t h 0 <> 0)) as [NZ|NZ].
  - assert (NZ' : exists t, nth t h' 0 <> 0). { apply (nonzero_gain h' n); [lia|rewrite L; exact Z|]. apply (nonzero_gain h n) in NZ; [|lia|exact Z]. destruct NZ as (k & K & X). exists k. rewrite E by exact K. auto. }
    destruct (minimum_ok newer h C NZ) as (n' & u & Z' & H & ->). rewrite <- (size_unique (length h) n n' ltac:(lia) Z Z') in H.
    rewrite (minimum_value newer h' n u); [rewrite L; reflexivity|lia|rewrite L; exact Z|exact NZ'|apply (of_modulus newer h); assumption].
  - assert (NZ' : ~ exists t, nth t h' 0 <> 0). { intros X. apply NZ. apply (nonzero_gain h n); [lia|exact Z|]. apply (nonzero_gain h' n) in X; [|lia|rewrite L; exact Z]. destruct X as (k & K & X). exists k. rewrite <- E by exact K. auto. }
    rewrite !minimum_errors; [reflexivity| |]; right; intros t; apply Classical_Prop.NNPP; intros X; [apply NZ|apply NZ']; eauto.
Qed.
(** ** scaling *)
Lemma dft_scal n c x k : dft n (map (Rmult c) x) k = (c * fst (dft n x k), c * snd (dft n x k)).
Proof.
  assert (V : forall j, nth j (map (Rmult c) x) 0 = c * nth j x 0).
  { intros j. destruct (Nat.lt_ge_cases j (length x)) as [C|C]; [apply (nth_map_in (Rmult c) x j 0 0 C)|]. rewrite !nth_overflow by (rewrite ?map_length; exact C). ring. }
  unfold dft. cbn [fst snd]. rewrite Ropp_mult_distr_r_reverse, <- !rsum_scal. f_equal; [|f_equal]; apply rsum_ext; intros j _; rewrite V; ring.
Qed.
Lemma modulus_scal c z : modulus (c * fst z, c * snd z) = Rabs c * modulus z.
Proof. unfold modulus. cbn [fst snd]. replace ((c * fst z) ^ 2 + (c * snd z) ^ 2) with (Rsqr c * (fst z ^ 2 + snd z ^ 2)) by (unfold Rsqr; ring). rewrite sqrt_mult by (try apply Rle_0_sqr; nra). rewrite sqrt_Rsqr_abs. reflexivity. Qed.
Lemma scaled_response newer h n u c : (0 < n)%nat -> c <> 0 -> minimum_phase_of newer h n u -> minimum_phase_of newer (map (Rmult c) h) n (map (Rmult (sqrt (Rabs c))) u).
Proof.
  intros N C (m & f & G & Lu & Lf & F & D). pose proof (Rabs_pos_lt c C) as PC. set (r := sqrt (Rabs c)). assert (Pr : 0 < r) by (apply sqrt_lt_R0; exact PC).
  assert (MOD : forall k, modulus (dft n (map (Rmult c) h) k) = Rabs c * modulus (dft n h k)) by (intros k; rewrite dft_scal; apply modulus_scal).
  exists (Rabs c * m), (map (fun t => nth t f 0 + if Nat.eqb t 0 then ln r else 0) (seq 0 n)). split; [|split; [|split; [|split]]].
  - destruct G as (P & (k0 & K0 & E0) & LG). split; [nra|]. split; [exists k0; rewrite MOD, E0; auto|]. intros k K. rewrite MOD. intros X. apply Rmult_le_compat_l; [lra|]. apply LG; [exact K|]. nra.
  - rewrite map_length. exact Lu.
  - rewrite map_length, seq_length. reflexivity.
  - intros t T. rewrite nth_map_seq, F, map_length by exact T. assert (CE : cepstrum n (map (Rmult c) h) (Rabs c * m) t = cepstrum n h m t + if Nat.eqb t 0 then ln r else 0).
    { unfold cepstrum. rewrite (rsum_ext n _ (fun k => ln (sqrt (lifted n h m k)) * cos (2 * PI * INR k * INR t / INR n) + ln r * cos (2 * PI * INR k * INR t / INR n))).
      - rewrite rsum_plus, rsum_scal, cos_sum_nat by assumption. destruct (Nat.eqb t 0); field; apply not_0_INR; lia.
      - intros k K. replace (lifted n (map (Rmult c) h) (Rabs c * m) k) with (Rabs c * lifted n h m k) by (unfold lifted; rewrite MOD; field).
        pose proof (lifted_pos n h m k ltac:(apply G)). rewrite sqrt_mult by lra. rewrite ln_mult by (apply sqrt_lt_R0; lra). fold r. ring. }
    rewrite CE. destruct (Nat.eqb_spec t 0) as [->|]; [rewrite share_0|]; ring.
  - intros k K. rewrite dft_scal, D by exact K.
    assert (DF : dft n (map (fun t => nth t f 0 + if Nat.eqb t 0 then ln r else 0) (seq 0 n)) k = (fst (dft n f k) + ln r, snd (dft n f k))).
    { pose proof (dft_pulse n (ln r) k N) as DP. unfold dft in *. injection DP as D1 D2. cbn [fst snd]. f_equal.
      - etransitivity; [|apply (f_equal (Rplus _) D1)]. rewrite <- rsum_plus. apply rsum_ext. intros j J. rewrite nth_map_seq, pulse_at by exact J. ring.
      - rewrite <- (Rplus_0_r (- rsum n (fun j => nth j f 0 * sin (2 * PI * INR (j * k) / INR n)))). etransitivity; [|apply (f_equal (Rplus _) D2)]. rewrite <- Ropp_plus_distr, <- rsum_plus. f_equal. apply rsum_ext. intros j J. rewrite nth_map_seq, pulse_at by exact J. ring. }
    rewrite DF. unfold cexp. cbn [fst snd]. rewrite exp_plus, exp_ln by exact Pr. f_equal; ring.
Qed.
Theorem minimum_scaled newer h c : c <> 0 -> minimum_phase newer (map (Rmult c) h) = match minimum_phase newer h with Ok y => Ok (map (Rmult (sqrt (Rabs c))) y) | Err e => Err e end.
Proof.
  intros C. destruct (Nat.le_gt_cases (length h) 2) as [S|S]; [rewrite !minimum_errors by (left; rewrite ?map_length; exact S); reflexivity|].
  assert (V : forall j, nth j (map (Rmult c) h) 0 = c * nth j h 0).
  { intros j. destruct (Nat.lt_ge_cases j (length h)) as [I|I]; [apply (nth_map_in (Rmult c) h j 0 0 I)|]. rewrite !nth_overflow by (rewrite ?map_length; exact I). ring. }
  destruct (Classical_Prop.classic (exists t, nth t h 0 <> 0)) as [NZ|NZ].
  - destruct (minimum_ok newer h S NZ) as (n & u & Z & H & ->). rewrite <- firstn_map. replace (length h / 2 + length h mod 2)%nat with (length (map (Rmult c) h) / 2 + length (map (Rmult c) h) mod 2)%nat by (rewrite map_length; reflexivity).
    apply (minimum_value newer (map (Rmult c) h) n); [rewrite map_length; lia|rewrite map_length; exact Z| |apply scaled_response; [apply (n_pos (length h)); [lia|exact Z]|exact C|exact H]].
    destruct NZ as [t T]. exists t. rewrite V. intros X. apply T. apply Rmult_integral in X. tauto.
  - assert (O : forall t, nth t h 0 = 0) by (intros t; apply Classical_Prop.NNPP; intros X; apply NZ; eauto). rewrite !minimum_errors; [reflexivity|right; exact O|right; intros t; rewrite V, O; ring].
Qed.
