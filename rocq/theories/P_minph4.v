(** The equaliser of hrirs_ctf with scipy's minimum_phase. *)
From Coq Require Import Lra Lia.
From Verif Require Import Base BaseFacts M_utils M_sig M_process M_sph M_grids M_parsa3 M_decoder4 M_process2 M_minph S_process S_decoder3 S_magls S_ctf S_minph P_utils P_sig P_magls4 P_magls5 P_ctf3 P_ctf4 P_ctf5 P_ctf6 X_magls X_ctf P_minph1 P_minph2 P_minph3.
Open Scope R_scope.

(** a delayed pulse has constant gains *)
Lemma modulus_pulse n x d a k : (d < n)%nat -> (forall t, (t < n)%nat -> nth t x 0 = if Nat.eqb t d then a else 0) -> modulus (dft n x k) = Rabs a.
Proof.
  intros D E. unfold modulus, dft. cbn [fst snd].
  rewrite (rsum_single n d) by (exact D || (intros j J NE; rewrite E by exact J; rewrite (proj2 (Nat.eqb_neq j d)) by auto; ring)).
  rewrite (rsum_single n d) by (exact D || (intros j J NE; rewrite E by exact J; rewrite (proj2 (Nat.eqb_neq j d)) by auto; ring)).
  rewrite !E, Nat.eqb_refl by exact D. set (th := 2 * PI * INR (d * k) / INR n).
  replace ((a * cos th) ^ 2 + (- (a * sin th)) ^ 2) with (Rsqr a * (Rsqr (sin th) + Rsqr (cos th))) by (unfold Rsqr; ring). rewrite sin2_cos2, Rmult_1_r. apply sqrt_Rsqr_abs.
Qed.
Theorem minimum_pulse newer h d a : (3 <= length h)%nat -> (d < length h)%nat -> a <> 0 -> (forall t, (t < length h)%nat -> nth t h 0 = if Nat.eqb t d then a else 0) ->
  minimum_phase newer h = Ok (first_pulse (length h / 2 + length h mod 2) (sqrt (Rabs a * (1 + 1 / 10 ^ 7)))).
Proof.
  intros L D A E. pose proof (size_ok (length h) ltac:(lia)) as Z. apply (minimum_flat newer h (minph_nfft (length h))); [exact L|exact Z|apply Rabs_pos_lt, A|].
  intros k _. apply (modulus_pulse _ h d a); [destruct Z as [_ Z]; lia|]. intros t T. destruct (Nat.lt_ge_cases t (length h)) as [C|C]; [apply E, C|]. rewrite nth_overflow by exact C. destruct (Nat.eqb_spec t d); [lia|reflexivity].
Qed.
Lemma minph_pulse newer x taps : (1 <= taps)%nat -> length x = (16 * taps)%nat -> (forall t, (t < 16 * taps)%nat -> nth t x 0 = if Nat.eqb t (8 * taps) then 1 else 0) -> minph newer x = first_pulse (8 * taps) trim.
Proof.
  intros T L E. unfold minph. rewrite (minimum_pulse newer x (8 * taps) 1); [|lia|lia|lra|rewrite L; exact E].
  assert (LL : (length x / 2 + length x mod 2 = 8 * taps)%nat). { rewrite L. replace (16 * taps)%nat with (8 * taps * 2)%nat by lia. rewrite Nat.div_mul, Nat.mod_mul by lia. lia. }
  rewrite LL, Rabs_R1, Rmult_1_l. reflexivity.
Qed.
Theorem flat_equaliser pinv cond newer hr lims gw w lo hi i al ar : weights_used pinv cond hr gw w -> ctf_setup hr w lims lo hi i -> (5 <= i)%nat ->
  all_pulses (h_left hr) (h_taps hr) al -> all_pulses (h_right hr) (h_taps hr) ar ->
  let el := rsum (length w) (fun g => nth g w 0 * al g ^ 2) in let er := rsum (length w) (fun g => nth g w 0 * ar g ^ 2) in
  0 <= el -> 0 <= er -> 0 < el + er ->
  hrirs_ctf pinv cond (minph newer) hr true lims gw = Ok (Some (first_pulse (h_taps hr) trim)).
Proof.
  intros W St I PL PR el er E1 E2 P. destruct (ctf_flat pinv cond (minph newer) hr true lims gw w lo hi i al ar W St I PL PR E1 E2 P) as (e & -> & x & L & X & ->). destruct St as (_ & T & _).
  rewrite (minph_pulse newer x (h_taps hr) T L X). rewrite firstn_pulse by lia. reflexivity.
Qed.
Lemma conv_pulse x n a t : (0 < n)%nat -> conv_sum x (first_pulse n a) t = a * nth t x 0.
Proof.
  intros N. unfold conv_sum. rewrite length_pulse. destruct (Nat.lt_ge_cases t (length x)) as [C|C].
  - rewrite (rsum_single (length x) t); [|exact C|].
    + rewrite (rsum_single n 0); [rewrite Nat.add_0_r, Nat.eqb_refl, pulse_at by exact N; cbn [Nat.eqb]; ring|exact N|]. intros j J NE. rewrite (proj2 (Nat.eqb_neq (t + j) t)) by lia. reflexivity.
    + intros k K NE. apply rsum_0. intros j J. destruct (Nat.eqb_spec (k + j) t); [|reflexivity]. rewrite pulse_at by exact J. destruct (Nat.eqb_spec j 0); [lia|ring].
  - rewrite (nth_overflow x) by exact C. rewrite Rmult_0_r. apply rsum_0. intros k K. apply rsum_0. intros j J. destruct (Nat.eqb_spec (k + j) t); [|reflexivity]. rewrite pulse_at by exact J. destruct (Nat.eqb_spec j 0); [lia|ring].
Qed.
Lemma Forall2_impl {A B} (P Q : A -> B -> Prop) l l' : (forall a b, P a b -> Q a b) -> Forall2 P l l' -> Forall2 Q l l'.
Proof. intros H. induction 1; constructor; auto. Qed.
Theorem flat_equalised pinv cond newer hr w lo hi i al ar : rectangular hr -> calculate_grid_weights pinv cond (h_azi hr) (h_zen hr) (Some 5%Z) = Ok w ->
  ctf_setup hr w (125, 10000) lo hi i -> (5 <= i)%nat -> all_pulses (h_left hr) (h_taps hr) al -> all_pulses (h_right hr) (h_taps hr) ar ->
  let el := rsum (length w) (fun g => nth g w 0 * al g ^ 2) in let er := rsum (length w) (fun g => nth g w 0 * ar g ^ 2) in
  0 <= el -> 0 <= er -> 0 < el + er ->
  exists hr', apply_ctf_eq pinv cond (minph newer) hr None Full = Ok (Some hr') /\ h_taps hr' = (2 * h_taps hr - 1)%nat /\
    Forall2 (fun x y => forall t, nth t y 0 = trim * nth t x 0) (h_left hr) (h_left hr') /\
    Forall2 (fun x y => forall t, nth t y 0 = trim * nth t x 0) (h_right hr) (h_right hr').
Proof.
  intros RC W St I PL PR el er E1 E2 P. pose proof (flat_equaliser pinv cond newer hr (125, 10000) None w lo hi i al ar (or_intror (conj eq_refl W)) St I PL PR E1 E2 P) as E.
  destruct RC as (A1 & A2 & T & A3 & A4). rewrite apply_default, E. destruct (f_full pinv cond (minph newer) hr (first_pulse (h_taps hr) trim)) as (hr' & -> & _ & _ & _ & _ & LT & FL & FR); [repeat split; assumption|rewrite length_pulse; exact T|].
  exists hr'. split; [reflexivity|]. rewrite length_pulse in *. split; [lia|].
  assert (CV : forall x y, length x = h_taps hr -> cut_convolution x (first_pulse (h_taps hr) trim) 0 (h_taps hr + h_taps hr - 1) y -> forall t, nth t y 0 = trim * nth t x 0).
  { intros x y Lx [Ly V] t. destruct (Nat.lt_ge_cases t (h_taps hr + h_taps hr - 1)) as [C|C]; [rewrite V, Nat.add_0_r by exact C; apply conv_pulse, T|]. rewrite !nth_overflow by lia. ring. }
  assert (AP : forall l l', Forall (fun x => length x = h_taps hr) l -> Forall2 (fun x y => cut_convolution x (first_pulse (h_taps hr) trim) 0 (h_taps hr + h_taps hr - 1) y) l l' -> Forall2 (fun x y => forall t, nth t y 0 = trim * nth t x 0) l l').
  { intros l l' FA F. induction F as [|x y l l' H F IH]; [constructor|]. inversion FA; subst. constructor; [apply CV; assumption|apply IH; assumption]. }
  split; apply AP; assumption.
Qed.

(** ** gains at the bins of the average *)
Lemma synth_shift m X t : (1 <= m)%nat -> (t < 2 * m)%nat -> (forall k, snd (X k) = 0) -> synth m X ((t + m) mod (2 * m)) = synth m (fun k => ((-1) ^ k * fst (X k), 0)) t.
Proof.
  intros M T Z. set (r := ((t + m) mod (2 * m))%nat). assert (R2 : exists b : nat, (t + m = r + 2 * m * b)%nat) by (exists ((t + m) / (2 * m))%nat; unfold r; pose proof (Nat.div_mod (t + m) (2 * m) ltac:(lia)); lia).
  destruct R2 as [b R2]. assert (N0 : INR (2 * m) <> 0) by (apply not_0_INR; lia).
  assert (CS : forall k : nat, cos (2 * PI * INR (k * r) / INR (2 * m)) = (-1) ^ k * cos (2 * PI * INR (k * t) / INR (2 * m))).
  { intros k. assert (A : 2 * PI * INR (k * r) / INR (2 * m) = 2 * PI * INR (k * t) / INR (2 * m) + PI * INR k + 2 * PI * IZR (- Z.of_nat (k * b))).
    { assert (RR : INR r = INR t + INR m - INR (2 * m) * INR b) by (rewrite <- mult_INR, <- plus_INR, R2, plus_INR, (mult_INR (2 * m) b); rewrite mult_INR; ring).
      rewrite opp_IZR, <- INR_IZR_INZ, !(mult_INR k), RR. rewrite (mult_INR 2 m) in *. simpl (INR 2) in *. field. intros X0. apply N0. rewrite X0. ring. }
    rewrite A, period_Z_cos, cos_plus, <- pow_m1_cos. replace (sin (PI * INR k)) with 0; [ring|]. symmetry. apply sin_eq_0_1. exists (Z.of_nat k). rewrite <- INR_IZR_INZ. ring. }
  unfold synth. f_equal. f_equal; [f_equal|].
  - cbn [fst pow]. ring.
  - cbn [fst]. pose proof (CS m) as C. rewrite !mult_INR in C. simpl (INR 2) in C. rewrite !pow_m1_cos in *. replace (2 * PI * (INR m * INR r) / ((1 + 1) * INR m)) with (PI * INR r) in C by (field; apply not_0_INR; lia).
    replace (2 * PI * (INR m * INR t) / ((1 + 1) * INR m)) with (PI * INR t) in C by (field; apply not_0_INR; lia). rewrite C. ring.
  - apply rsum_ext. intros j J. rewrite Z. cbn [fst snd]. rewrite CS. ring.
Qed.
(** bins of a longer transform *)
Lemma dft_longer n q x k : (0 < n)%nat -> (1 <= q)%nat -> (length x <= n)%nat -> dft (n * q) x (q * k) = dft n x k.
Proof.
  intros N Q L. assert (A : forall j, 2 * PI * INR (j * (q * k)) / INR (n * q) = 2 * PI * INR (j * k) / INR n) by (intros j; rewrite !mult_INR; field; split; apply not_0_INR; lia).
  assert (G : forall g : nat -> R, rsum (n * q) (fun j => nth j x 0 * g j) = rsum n (fun j => nth j x 0 * g j)).
  { intros g. replace (n * q)%nat with (n + (n * q - n))%nat by nia. rewrite rsum_app, (rsum_0 (n * q - n)); [ring|]. intros i I. rewrite nth_overflow by lia. ring. }
  unfold dft. rewrite (G (fun j => cos (2 * PI * INR (j * (q * k)) / INR (n * q)))), (G (fun j => sin (2 * PI * INR (j * (q * k)) / INR (n * q)))).
  f_equal; [|f_equal]; apply rsum_ext; intros j _; rewrite A; reflexivity.
Qed.
Lemma gains_at_bins taps H x n q k : (1 <= taps)%nat -> length x = (16 * taps)%nat -> (forall t, (t < 16 * taps)%nat -> nth t x 0 = synth (8 * taps) (fun k => (H k ^ 2, 0)) ((t + 8 * taps) mod (16 * taps))) ->
  (1 <= q)%nat -> n = (16 * taps * q)%nat -> (k <= 8 * taps)%nat -> modulus (dft n x (q * k)) = H k ^ 2.
Proof.
  intros T L E Q -> K. rewrite dft_longer by lia. replace (16 * taps)%nat with (2 * (8 * taps))%nat in * by lia.
  rewrite (dft_synth (8 * taps) (fun k => ((-1) ^ k * H k ^ 2, 0)) x k); [|lia|exact K|].
  - cbn [fst snd]. replace (if Nat.eqb k 0 || Nat.eqb k (8 * taps) then 0 else 0) with 0 by (destruct (_ || _); reflexivity). unfold modulus. cbn [fst snd]. replace (((-1) ^ k * H k ^ 2) ^ 2 + 0 ^ 2) with (Rsqr ((-1) ^ k * H k ^ 2)) by (unfold Rsqr; ring).
    rewrite sqrt_Rsqr_abs, Rabs_mult, pow_1_abs, Rmult_1_l. apply Rabs_right. nra.
  - intros t Ht. rewrite E by exact Ht. rewrite synth_shift; [reflexivity|lia|exact Ht|reflexivity].
Qed.
Lemma size_multiple j n : transform_size (16 * 2 ^ j) n -> exists q, (1 <= q)%nat /\ Nat.even q = true /\ n = (16 * 2 ^ j * q)%nat.
Proof.
  intros [[p ->] B]. pose proof (Nat.pow_nonzero 2 j ltac:(lia)) as N. assert (E : (16 * 2 ^ j = 2 ^ (4 + j))%nat) by (rewrite Nat.pow_add_r; reflexivity). rewrite E in *.
  assert (P : (5 + j <= p)%nat). { apply Nat.nlt_ge. intros C. pose proof (Nat.pow_le_mono_r 2 p (4 + j) ltac:(lia) ltac:(lia)) as H. pose proof (Nat.pow_nonzero 2 (4 + j) ltac:(lia)). assert (2 ^ 4 <= 2 ^ (4 + j))%nat by (apply Nat.pow_le_mono_r; lia). change (2 ^ 4)%nat with 16%nat in *. lia. }
  exists (2 ^ (p - (4 + j)))%nat. split; [pose proof (Nat.pow_nonzero 2 (p - (4 + j))); lia|]. split.
  - destruct (p - (4 + j))%nat as [|r] eqn:R; [lia|]. rewrite Nat.pow_succ_r'. apply Nat.even_spec. eexists; reflexivity.
  - rewrite <- Nat.pow_add_r. f_equal. lia.
Qed.
Theorem equaliser_gains pinv cond hr j lims gw w lo hi i : h_taps hr = (2 ^ j)%nat -> weights_used pinv cond hr gw w -> ctf_setup hr w lims lo hi i ->
  audible w (h_left hr) (h_right hr) (16 * h_taps hr) -> (5 <= i)%nat ->
  exists s u a q, hrirs_ctf pinv cond (minph true) hr true lims gw = Ok (Some (firstn (h_taps hr) u)) /\ common_level w (h_left hr) (h_right hr) (16 * h_taps hr) s /\
    0 < a /\ length u = (16 * h_taps hr * q)%nat /\
    forall k, (k <= 8 * h_taps hr)%nat -> let c := correction lo hi (8 * h_taps hr + 1) i s k in
      0 < c /\ a * c <= modulus (dft (16 * h_taps hr * q) u (q * k)) <= a * trim * c.
Proof.
  intros TJ W St A I. destruct (ctf_main pinv cond (minph true) hr true lims gw w lo hi i W St A I) as (s & e & E & C & PS & x & L & X & ->). pose proof St as (F0 & T & LW & LL & LR & BLO & BHI & BI).
  set (H := correction lo hi (8 * h_taps hr + 1) i s) in *.
  assert (half16 : (16 * h_taps hr / 2 = 8 * h_taps hr)%nat) by (replace (16 * h_taps hr)%nat with (8 * h_taps hr * 2)%nat by lia; apply Nat.div_mul; lia).
  assert (HP : forall k, (k <= 8 * h_taps hr)%nat -> 0 < H k).
  { destruct (f_correction lo hi (8 * h_taps hr + 1) i s) as (_ & _ & _ & Q); [destruct BHI as [BHI _]; lia|destruct BI as [BI _]; lia|intros k K; apply PS; lia|]. intros k K. apply Q. lia. }
  pose proof (size_ok (length x) ltac:(rewrite L; lia)) as Z. set (n := minph_nfft (length x)) in *. clearbody n. rewrite L in Z. pose proof Z as Z'. rewrite TJ in Z'. destruct (size_multiple j n Z') as (q & Q & EQ & EN). rewrite <- TJ in EN.
  assert (G : forall k, (k <= 8 * h_taps hr)%nat -> modulus (dft n x (q * k)) = H k ^ 2) by (intros k K; apply (gains_at_bins (h_taps hr) H x n q k); auto).
  assert (NZ : exists t, nth t x 0 <> 0).
  { apply (nonzero_gain x n); [lia|rewrite L; exact Z|]. exists (q * 0)%nat. split; [nia|]. rewrite G by lia. pose proof (HP 0%nat ltac:(lia)). nra. }
  destruct (minimum_ok true x ltac:(lia) NZ) as (n' & u & Zn & HU & EU). rewrite L in Zn. rewrite <- (size_unique (16 * h_taps hr) n n' ltac:(lia) Z Zn) in HU. clear n' Zn.
  assert (LU : length u = n) by (destruct HU as (? & ? & _ & LU & _); exact LU).
  destruct (gain_newer x n u ltac:(lia) ltac:(rewrite L; exact Z) HU) as (m & LG & GU).
  exists s, u, (exp (- cepstrum n x m (n / 2))), q. split; [|split; [exact C|split; [apply exp_pos|split; [congruence|]]]].
  - rewrite E. do 2 f_equal. unfold minph. rewrite EU. rewrite firstn_firstn. f_equal. rewrite L. lia.
  - intros k K. cbv zeta. fold (H k). pose proof (HP k K) as Pk. split; [exact Pk|]. rewrite <- EN. rewrite GU by nia.
    assert (EV : (-1) ^ (q * k) = 1). { apply Nat.even_spec in EQ. destruct EQ as [q' ->]. replace (2 * q' * k)%nat with (2 * (q' * k))%nat by lia. rewrite pow_mult. replace ((-1) ^ 2) with 1 by ring. apply pow1. }
    rewrite EV, Rmult_1_l. set (a := exp _). assert (Pa : 0 < a) by apply exp_pos. unfold lifted. rewrite G by exact K. destruct LG as (Pm & _ & LG). specialize (LG (q * k)%nat ltac:(nia)). rewrite G in LG by exact K. specialize (LG ltac:(nra)).
    assert (B1 : H k <= sqrt (H k ^ 2 + m / 10 ^ 7)). { rewrite <- (sqrt_square (H k)) at 1 by lra. apply sqrt_le_1_alt. assert (0 < m / 10 ^ 7) by (apply Rdiv_lt_0_compat; lra). nra. }
    assert (B2 : sqrt (H k ^ 2 + m / 10 ^ 7) <= trim * H k). { unfold trim. rewrite <- (sqrt_square (H k)) at 2 by lra. rewrite <- sqrt_mult by nra. apply sqrt_le_1_alt. assert (m / 10 ^ 7 <= H k ^ 2 / 10 ^ 7) by (apply Rmult_le_compat_r; [apply Rlt_le, Rinv_0_lt_compat; lra|exact LG]). nra. }
    split; [rewrite (Rmult_comm a); apply Rmult_le_compat_r; lra|]. replace (a * trim * H k) with (trim * H k * a) by ring. apply Rmult_le_compat_r; lra.
Qed.
