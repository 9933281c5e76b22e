(** Final forms and examples for C_parsa2.v. *)
From Coq Require Import Permutation.
From Verif Require Import Base BaseFacts M_utils M_sig M_process M_sph M_decoder M_decoder2 M_decoder3 M_parsa2
  S_utils S_decoder3 S_parsa2 P_utils P_sig P_dec13 X_sig X_dec3 P_parsa6 P_parsa7 P_parsa8.
Open Scope R_scope.

(** * C33 *)
Lemma component_masked h b n j c : (1 <= h)%nat -> component h b n j c = masked h n (bW b) (chan b c) j.
Proof. intros H. unfold component, masked. destruct (Nat.eqb_spec h 0); [lia|]. cbn [negb]. rewrite andb_true_r. reflexivity. Qed.
Lemma smoothing_ext so n f g j : (j < n)%nat -> (forall i, (i < n)%nat -> f i = g i) -> smoothing so n f j = smoothing so n g j.
Proof. intros J H. unfold smoothing. destruct (0 <? so)%Z; [apply smoothed_ext; exact H|apply H; exact J]. Qed.
Lemma filtered_all bp a b : filtered bp a b -> bandpass_all bp a = Ok b.
Proof.
  unfold filtered, bandpass_all. destruct bp as [f|]; [|intros ->; reflexivity]. intros (A & B & C & D). rewrite A, B, C, D. cbn [bind]. destruct b. reflexivity.
Qed.
Lemma f_values bp a b n h so de sc : filtered bp a b -> multi_len (base a) = Ok n -> long b n -> (1 <= h)%nat ->
  (so <= 0 \/ exists s, so = odd s)%Z ->
  exists out, pseudo_intensity bp a (odd h) so 1 de sc = Ok out /\ length out = n /\
    forall j, (j < n)%nat -> nth j out (0, None, 0) =
      cart2sph (smoothing so n (masked h n (bW b) (bX b)) j) (smoothing so n (masked h n (bW b) (bY b)) j)
               (smoothing so n (masked h n (bW b) (bZ b)) j) false true.
Proof.
  intros Eb En Hb Hh S. apply filtered_all in Eb. destruct (intensity_ok_all bp a b n h so de sc Eb En Hb S) as (out & E & L & N).
  exists out. split; [exact E|]. split; [exact L|]. intros j J. rewrite N by exact J.
  assert (forall c, smoothing so n (fun i => component h b n i c) j = smoothing so n (masked h n (bW b) (chan b c)) j) as G.
  { intros c. apply smoothing_ext; [exact J|]. intros i _. apply component_masked. exact Hh. }
  rewrite !G. reflexivity.
Qed.
Lemma arctan2_00 : arctan2 0 0 = 0.
Proof. unfold arctan2. rewrite !(proj2 (Rltb_false 0 0)) by lra. reflexivity. Qed.
Lemma silent_sph : cart2sph 0 0 0 false true = (0, Some (PI / 2), 0).
Proof.
  unfold cart2sph. cbn [negb]. rewrite arctan2_00. replace (0 ^ 2 + 0 ^ 2 + 0 ^ 2) with 0 by ring. rewrite sqrt_0.
  unfold clip_lo. assert (0 < 10 * / 10 ^ 15) by (apply Rmult_lt_0_compat; [lra|apply Rinv_0_lt_compat; apply pow_lt; lra]).
  rewrite Rmax_left by lra. rewrite np_div_ok by lra. cbn [obind]. unfold Rdiv. rewrite Rmult_0_l.
  rewrite np_acos_ok by lra. rewrite acos_0. reflexivity.
Qed.
Lemma smoothing_0 so n f j : (j < n)%nat -> (forall i, (i < n)%nat -> f i = 0) -> smoothing so n f j = 0.
Proof.
  intros J H. unfold smoothing. destruct (0 <? so)%Z; [|apply H; exact J]. apply rsum_0. intros m _.
  destruct (Nat.leb_spec m (j + (length (hann_weights (Z.to_nat (so / 2))) - 1) / 2)); cbn [andb]; [|reflexivity].
  destruct (Nat.ltb_spec (j + (length (hann_weights (Z.to_nat (so / 2))) - 1) / 2 - m) n); [|reflexivity].
  rewrite H by assumption. lra.
Qed.
Lemma f_unvisited bp a b n h so de sc out j : filtered bp a b -> multi_len (base a) = Ok n -> long b n -> (so <= 0)%Z ->
  pseudo_intensity bp a (odd h) so 1 de sc = Ok out -> (j < n)%nat -> ~ visited n h j ->
  nth j out (0, None, 0) = (0, Some (PI / 2), 0).
Proof.
  intros Eb En Hb S E J V. apply filtered_all in Eb. destruct (intensity_ok_all bp a b n h so de sc Eb En Hb (or_introl S)) as (out' & E' & L & N).
  rewrite E in E'. injection E' as <-. rewrite N by exact J. unfold smoothing. destruct (Z.ltb_spec 0 so); [lia|].
  assert (forall c, component h b n j c = 0) as G.
  { intros c. unfold component, visited in *. destruct (Nat.leb_spec h j); [|reflexivity].
    destruct (Nat.ltb_spec (j + h + 1) n); [exfalso; apply V; lia|reflexivity]. }
  rewrite !G. apply silent_sph.
Qed.
Lemma f_window_one bp a b n so de sc out j : filtered bp a b -> multi_len (base a) = Ok n -> long b n ->
  (so <= 0 \/ exists s, so = odd s)%Z ->
  pseudo_intensity bp a 1 so 1 de sc = Ok out -> (j < n)%nat -> nth j out (0, None, 0) = (0, Some (PI / 2), 0).
Proof.
  intros Eb En Hb S E J. apply filtered_all in Eb. destruct (intensity_ok_all bp a b n 0 so de sc Eb En Hb S) as (out' & E' & L & N).
  change (odd 0) with 1%Z in E'. rewrite E in E'. injection E' as <-. rewrite N by exact J.
  rewrite !smoothing_0; [apply silent_sph|exact J| |exact J| |exact J|]; intros i _; unfold component; cbn [Nat.eqb negb]; rewrite andb_false_r; reflexivity.
Qed.
Lemma f_checks bp a wl so jobs de sc :
  ((wl mod 2 = 0)%Z -> pseudo_intensity bp a wl so jobs de sc = Err AssertionError) /\
  (forall b n, (wl mod 2 = 1)%Z -> (0 < so)%Z -> (so mod 2 = 0)%Z -> filtered bp a b -> multi_len (base a) = Ok n ->
     (exists h, wl = odd h) -> long b n -> jobs = 1%Z -> pseudo_intensity bp a wl so jobs de sc = Err AssertionError).
Proof.
  split.
  - intros H. unfold pseudo_intensity. rewrite H. reflexivity.
  - intros b n H1 P H2 Eb En [h ->] Hb ->. apply filtered_all in Eb. unfold pseudo_intensity. rewrite odd_check. cbn [assert_ bind]. rewrite Eb, En. cbn [bind].
    destruct (buffer_sequential h b n de sc Hb) as (buf & E & _ & _). rewrite E. cbn [bind].
    unfold smooth_columns. destruct (Z.ltb_spec 0 so); [|lia]. rewrite H2. reflexivity.
Qed.
Lemma f_jobs bp a b n h so jobs deal sched de sc : filtered bp a b -> multi_len (base a) = Ok n -> long b n ->
  (2 <= jobs)%Z -> dealt deal (n - (2 * h + 1)) ->
  (forall m, intensity_machine b n (odd h) deal = Ok m -> finished (steps m sched)) ->
  pseudo_intensity bp a (odd h) so jobs deal sched = pseudo_intensity bp a (odd h) so 1 de sc.
Proof. intros Eb. apply intensity_jobs. apply filtered_all. exact Eb. Qed.
Lemma f_trim resample a start stop dur a' n h so de sc : ambib_step resample a (OpTrim start stop dur) = Ok a' -> multi_len (base a') = Ok n ->
  long (bands a) n -> (1 <= h)%nat -> (so <= 0 \/ exists s, so = odd s)%Z ->
  exists out, pseudo_intensity None a' (odd h) so 1 de sc = Ok out /\ length out = n /\
    forall j, (j < n)%nat -> nth j out (0, None, 0) =
      cart2sph (smoothing so n (masked h n (aW a) (aX a)) j) (smoothing so n (masked h n (aW a) (aY a)) j)
               (smoothing so n (masked h n (aW a) (aZ a)) j) false true.
Proof.
  intros E En Hb Hh S. cbn [ambib_step] in E. destruct (multi_trim (base a) start stop dur) as [m|] eqn:Em; [|discriminate E].
  cbn [bind] in E. injection E as <-. cbn [base] in En.
  destruct (f_values None (AmbiB m (aW a) (aX a) (aY a) (aZ a)) (bands a) n h so de sc eq_refl) as (out & A & B & C); auto.
  exists out. auto.
Qed.

(** * C76 *)
Lemma nth_scale k l i : nth i (map (fun x => k * x) l) 0 = k * nth i l 0.
Proof. apply nth_scaled. Qed.
Lemma masked_wave h n c k sig j : masked h n (map (fun x => c * x) sig) (map (fun x => k * x) sig) j = c * k * masked h n sig sig j.
Proof.
  unfold masked. destruct ((h <=? j) && (j + h + 1 <? n))%nat%bool; [|lra].
  unfold windowed_product. rewrite <- rsum_scal. apply rsum_ext. intros m _. rewrite !nth_scale. ring.
Qed.
Lemma smoothing_scal so n k f j : smoothing so n (fun i => k * f i) j = k * smoothing so n f j.
Proof.
  unfold smoothing. destruct (0 <? so)%Z; [|reflexivity]. unfold smoothed. rewrite <- rsum_scal. apply rsum_ext. intros m _.
  destruct ((m <=? _)%nat && _)%bool; lra.
Qed.
Lemma doa a n h so sig c azi zen de sc out j : multi_len (base a) = Ok n -> (n <= length sig)%nat -> (1 <= h)%nat ->
  (so <= 0 \/ exists s, so = odd s)%Z -> plane_wave a sig c (sph2cart azi zen 1) ->
  - PI < azi <= PI -> 0 < zen < PI -> (j < n)%nat ->
  10 / 10 ^ 15 <= c * smoothing so n (masked h n sig sig) j ->
  pseudo_intensity None a (odd h) so 1 de sc = Ok out ->
  nth j out (0, None, 0) = (azi, Some zen, c * smoothing so n (masked h n sig sig) j).
Proof.
  intros En Ls Hh S (PW & PX & PY & PZ) Ha Hz J HE E.
  assert (long (bands a) n) as Hb by (unfold long, bands; cbn [bW bX bY bZ]; rewrite PW, PX, PY, PZ, !map_length; lia).
  destruct (f_values None a (bands a) n h so de sc eq_refl En Hb Hh S) as (out' & E' & L & N).
  rewrite E in E'. injection E' as <-. rewrite N by exact J. unfold bands. cbn [bW bX bY bZ]. rewrite PW, PX, PY, PZ.
  set (e := smoothing so n (masked h n sig sig) j) in *.
  assert (forall k, smoothing so n (masked h n (map (fun x => c * x) sig) (map (fun x => k * x) sig)) j = c * e * k) as G.
  { intros k. unfold e. rewrite (smoothing_ext so n _ (fun i => c * k * masked h n sig sig i) j J) by (intros; apply masked_wave).
    rewrite smoothing_scal. ring. }
  rewrite !G. unfold sph2cart, vx, vy, vz. cbn [fst snd].
  assert (0 < 10 / 10 ^ 15) as P by (apply Rdiv_lt_0_compat; [lra|apply pow_lt; lra]).
  pose proof (sph_cart_sph azi zen (c * e) true Ha Hz ltac:(lra) (fun _ => HE)) as Q.
  unfold sph2cart in Q. rewrite <- Q. f_equal; ring.
Qed.
Lemma masked_centre h n sig j : (1 <= h)%nat -> visited n h j -> nth j sig 0 * nth j sig 0 <= masked h n sig sig j.
Proof.
  intros Hh [V1 V2]. unfold masked. destruct (Nat.leb_spec h j); [|lia]. destruct (Nat.ltb_spec (j + h + 1) n); [|lia]. cbn [andb].
  unfold windowed_product. eapply Rle_trans.
  2: { apply (rsum_ge_term _ (fun k => hann (2 * h + 1) k * nth (j - h + k) sig 0 * nth (j - h + k) sig 0) h).
    - intros i _. rewrite Rmult_assoc. apply Rmult_le_pos; [apply Rle_0_sqr|]. pose proof (Rle_0_sqr (nth (j - h + i) sig 0)) as Q. unfold Rsqr in Q. exact Q.
    - lia. }
  cbv beta. replace (j - h + h)%nat with j by lia. right.
  assert (hann (2 * h + 1) h = 1) as ->; [|ring]. unfold hann.
  replace (PI * INR h / INR (2 * h + 1 - 1)) with (PI / 2); [rewrite sin_PI2; unfold Rsqr; ring|].
  replace (2 * h + 1 - 1)%nat with (2 * h)%nat by lia. rewrite mult_INR. change (INR 2) with 2. field. apply not_0_INR. lia.
Qed.
Lemma doa_loud a n h sig azi zen de sc out j : multi_len (base a) = Ok n -> (n <= length sig)%nat -> (1 <= h)%nat ->
  plane_wave a sig 1 (sph2cart azi zen 1) -> - PI < azi <= PI -> 0 < zen < PI -> visited n h j ->
  1 / 10 ^ 7 <= Rabs (nth j sig 0) ->
  pseudo_intensity None a (odd h) 0 1 de sc = Ok out ->
  exists r, nth j out (0, None, 0) = (azi, Some zen, r) /\ nth j sig 0 * nth j sig 0 <= r.
Proof.
  intros En Ls Hh PW Ha Hz V Q E. assert (j < n)%nat as J by (destruct V; lia).
  pose proof (masked_centre h n sig j Hh V) as M.
  exists (1 * masked h n sig sig j). split; [|lra].
  apply (doa a n h 0 sig 1 azi zen de sc out j); auto; [left; lia|].
  change (smoothing 0 n (masked h n sig sig) j) with (masked h n sig sig j).
  assert (Rabs (nth j sig 0) * Rabs (nth j sig 0) = nth j sig 0 * nth j sig 0) as A.
  { rewrite <- Rabs_mult. apply Rabs_pos_eq. pose proof (Rle_0_sqr (nth j sig 0)) as P. exact P. }
  assert (1 / 10 ^ 7 * (1 / 10 ^ 7) <= Rabs (nth j sig 0) * Rabs (nth j sig 0)) as B.
  { assert (0 < 1 / 10 ^ 7) by (apply Rdiv_lt_0_compat; [lra|apply pow_lt; lra]). apply Rmult_le_compat; lra. }
  assert (10 / 10 ^ 15 = 1 / 10 ^ 7 * (1 / 10 ^ 7)) as C by field. lra.
Qed.
Lemma src_wave a sig azi zen : let B := src_to_b sig [azi] [zen] in
  let row k := map (ent B k) (seq 0 (nc B)) in
  aW a = row 0%nat -> aX a = row 1%nat -> aY a = row 2%nat -> aZ a = row 3%nat ->
  plane_wave a sig 1 (sph2cart azi zen 1).
Proof.
  intros B row EW EX EY EZ.
  assert (forall k, row k = map (fun x => nth k [1; vx (sph2cart azi zen 1); vy (sph2cart azi zen 1); vz (sph2cart azi zen 1)] 0 * x) sig) as G.
  { intros k. unfold row, B, src_to_b. cbn [nc ent combine flat_map app fst snd].
    apply (nth_ext_list 0); rewrite !map_length, ?seq_length; [reflexivity|].
    intros i I. rewrite nth_map_seq by exact I. rewrite nth_scale. reflexivity. }
  unfold plane_wave. rewrite EW, EX, EY, EZ, !G. cbn [nth]. auto.
Qed.

(** * C42 *)
Lemma stereo_loop_ok : forall p phi theta i l r, length l = length r -> (i + length p <= length l)%nat ->
  exists l' r', stereo_loop i p phi theta l r = (l', r') /\ length l' = length l /\ length r' = length r /\
    forall j, nth j l' 0 = nth j l 0 + (if ((i <=? j) && (j <? i + zipped p phi theta))%nat%bool then nth (j - i) p 0 * gain_left (nth (j - i) phi 0) else 0) /\
      nth j r' 0 = nth j r 0 + (if ((i <=? j) && (j <? i + zipped p phi theta))%nat%bool then nth (j - i) p 0 * (1 - gain_left (nth (j - i) phi 0)) else 0).
Proof.
  assert (forall i l r, exists l' r' : list R, (l, r) = (l', r') /\ length l' = length l /\ length r' = length r /\
    forall j (f g : R), nth j l' 0 = nth j l 0 + (if ((i <=? j) && (j <? i + 0))%nat%bool then f else 0) /\
      nth j r' 0 = nth j r 0 + (if ((i <=? j) && (j <? i + 0))%nat%bool then g else 0)) as T.
  { intros i l r. exists l, r. do 3 (split; [reflexivity|]). intros j f g.
    destruct (Nat.leb_spec i j); destruct (Nat.ltb_spec j (i + 0)); cbn [andb]; try lia; split; lra. }
  induction p as [|p0 p IH]; intros phi theta i l r LR B.
  - destruct (T i l r) as (l' & r' & E & A1 & A2 & A3). exists l', r'. do 3 (split; [assumption|]). intros j. apply A3.
  - destruct phi as [|f0 phi]; [|destruct theta as [|t0 theta]].
    + destruct (T i l r) as (l' & r' & E & A1 & A2 & A3). exists l', r'. do 3 (split; [assumption|]). intros j. apply A3.
    + destruct (T i l r) as (l' & r' & E & A1 & A2 & A3). exists l', r'. do 3 (split; [assumption|]). intros j. apply A3.
    + cbn [length] in B. cbn [stereo_loop].
      set (l1 := upd l i _). set (r1 := upd r i _).
      assert (length l1 = length l) as L1 by apply length_upd. assert (length r1 = length r) as R1 by apply length_upd.
      destruct (IH phi theta (S i) l1 r1) as (l' & r' & E & A1 & A2 & A3); [lia|lia|].
      exists l', r'. split; [exact E|]. split; [lia|]. split; [lia|]. intros j. destruct (A3 j) as [C1 C2]. rewrite C1, C2.
      assert (zipped (p0 :: p) (f0 :: phi) (t0 :: theta) = S (zipped p phi theta)) as -> by reflexivity.
      assert (gain_left f0 = / 2 * (1 + cos (f0 - PI / 2)) /\ 1 - gain_left f0 = / 2 * (1 + cos (f0 + PI / 2))) as [G1 G2].
      { unfold gain_left. rewrite cos_plus, cos_minus, cos_PI2, sin_PI2. split; lra. }
      unfold l1, r1. destruct (Nat.eq_dec j i) as [->|Q].
      * rewrite !nth_upd_same by lia. destruct (Nat.leb_spec (S i) i); [lia|]. destruct (Nat.leb_spec i i); [|lia].
        destruct (Nat.ltb_spec i (i + S (zipped p phi theta))); [|lia]. cbn [andb]. rewrite Nat.sub_diag. cbn [nth]. rewrite G2, G1. lra.
      * rewrite !nth_upd_other by congruence.
        destruct (Nat.leb_spec (S i) j).
        -- destruct (Nat.leb_spec i j); [|lia]. replace (i + S (zipped p phi theta))%nat with (S i + zipped p phi theta)%nat by lia.
           replace (j - i)%nat with (S (j - S i)) by lia. cbn [nth]. auto.
        -- destruct (Nat.leb_spec i j); [lia|]. cbn [andb]. auto.
Qed.
Lemma f_stereo p phi theta l r : render_stereo_sdm p phi theta = (l, r) ->
  length l = length p /\ length r = length p /\
  (forall j, (j < zipped p phi theta)%nat ->
     nth j l 0 = nth j p 0 * gain_left (nth j phi 0) /\ nth j r 0 = nth j p 0 * (1 - gain_left (nth j phi 0))) /\
  (forall j, (zipped p phi theta <= j)%nat -> nth j l 0 = 0 /\ nth j r 0 = 0).
Proof.
  intros E. destruct (stereo_loop_ok p phi theta 0 (repeat 0 (length p)) (repeat 0 (length p))) as (l' & r' & E' & A & B & C);
    [reflexivity|rewrite repeat_length; lia|].
  unfold render_stereo_sdm in E. rewrite E in E'. injection E' as <- <-. rewrite repeat_length in A, B.
  split; [exact A|]. split; [exact B|].
  split; intros j J; destruct (C j) as [C1 C2]; rewrite C1, C2, nth_repeat; cbn [Nat.leb andb]; rewrite Nat.add_0_l, Nat.sub_0_r.
  - rewrite (proj2 (Nat.ltb_lt _ _) J). split; lra.
  - rewrite (proj2 (Nat.ltb_ge _ _) J). split; lra.
Qed.
Lemma gain_bounds phi : 0 <= gain_left phi <= 1.
Proof. unfold gain_left. pose proof (SIN_bound phi). lra. Qed.
Lemma f_stereo_sum p phi theta l r : render_stereo_sdm p phi theta = (l, r) ->
  (length p <= length phi)%nat -> (length p <= length theta)%nat -> forall j,
  nth j l 0 + nth j r 0 = nth j p 0 /\
  exists g, 0 <= g <= 1 /\ nth j l 0 = g * nth j p 0 /\ nth j r 0 = (1 - g) * nth j p 0.
Proof.
  intros E Lp Lt j. destruct (f_stereo p phi theta l r E) as (_ & _ & A & B).
  assert (zipped p phi theta = length p) as Z by (unfold zipped; lia). rewrite Z in *.
  destruct (le_lt_dec (length p) j) as [G|G].
  - destruct (B j G) as [-> ->]. rewrite nth_overflow by exact G. split; [lra|]. exists 0. lra.
  - destruct (A j G) as [-> ->]. split; [lra|]. exists (gain_left (nth j phi 0)). split; [apply gain_bounds|]. lra.
Qed.
Lemma f_stereo_sides p phi theta l r j : render_stereo_sdm p phi theta = (l, r) -> (j < zipped p phi theta)%nat ->
  (nth j phi 0 = PI / 2 -> nth j l 0 = nth j p 0 /\ nth j r 0 = 0) /\
  (nth j phi 0 = - (PI / 2) -> nth j l 0 = 0 /\ nth j r 0 = nth j p 0) /\
  (sin (nth j phi 0) = 0 -> nth j l 0 = nth j r 0).
Proof.
  intros E J. destruct (f_stereo p phi theta l r E) as (_ & _ & A & _). destruct (A j J) as [-> ->].
  unfold gain_left. split; [|split].
  - intros ->. rewrite sin_PI2. split; lra.
  - intros ->. rewrite sin_neg, sin_PI2. split; lra.
  - intros ->. lra.
Qed.
Lemma f_stereo_theta p phi theta theta' : length theta = length theta' ->
  render_stereo_sdm p phi theta = render_stereo_sdm p phi theta'.
Proof.
  intros L. destruct (render_stereo_sdm p phi theta) as [l r] eqn:E. destruct (render_stereo_sdm p phi theta') as [l' r'] eqn:E'.
  destruct (f_stereo _ _ _ _ _ E) as (A1 & A2 & A3 & A4). destruct (f_stereo _ _ _ _ _ E') as (B1 & B2 & B3 & B4).
  assert (zipped p phi theta' = zipped p phi theta) as Z by (unfold zipped; lia). rewrite Z in *.
  f_equal; apply (nth_ext_list 0); try lia; intros j _; destruct (le_lt_dec (zipped p phi theta) j) as [G|G].
  - rewrite (proj1 (A4 j G)), (proj1 (B4 j G)). reflexivity.
  - rewrite (proj1 (A3 j G)), (proj1 (B3 j G)). reflexivity.
  - rewrite (proj2 (A4 j G)), (proj2 (B4 j G)). reflexivity.
  - rewrite (proj2 (A3 j G)), (proj2 (B3 j G)). reflexivity.
Qed.

(** * C77 *)
Lemma arr2_rect m : rect (arr2_of m).
Proof.
  unfold rect, arr2_of. cbn [rows cols]. rewrite Forall_forall. intros x X. apply in_map_iff in X. destruct X as (i & <- & _).
  rewrite map_length, seq_length. reflexivity.
Qed.
Lemma radiated_arriving p gains h di c : (c < nc gains)%nat ->
  radiated (arr2_of (Mat (nc gains) (length p) (fun l t => nth t p 0 * ent gains t l))) (h_a h) di c =
  arriving p gains (h_a h) (di c) c.
Proof.
  intros C. unfold radiated, arriving, arr2_of. cbn [rows nr nc ent]. rewrite nth_map_seq by exact C. rewrite map_map. reflexivity.
Qed.
Lemma heard_dec x : {heard x} + {~ heard x}.
Proof.
  destruct (gate_open x) eqn:E; [left; apply gate_heard; exact E|right; intros H; apply gate_heard in H; congruence].
Qed.
Lemma conv_sum_zero x h n : (forall v, In v x -> v = 0) -> conv_sum x h n = 0.
Proof.
  intros H. unfold conv_sum. apply rsum_0. intros i I. apply rsum_0. intros j J. destruct (i + j =? n)%nat; [|reflexivity].
  rewrite (H (nth i x 0)) by (apply nth_In; exact I). lra.
Qed.
Lemma f_loudspeakers p gains h fs hr T az ze di hl hh : hrir_set hr T -> rendered_from h (0, 0) hr az ze di hl hh -> h_fs hr = fs ->
  nr gains = length p -> nc gains = length (h_points h) ->
  (forall c, (c < nc gains)%nat -> heard (arriving p gains (h_a h) (di c) c) \/ forall v, In v (arriving p gains (h_a h) (di c) c) -> v = 0) ->
  exists l r, render_binaural_loudspeaker_sdm p gains h fs None hr = Ok (Some (l, r)) /\
    length l = (length p + T - 1)%nat /\ length r = (length p + T - 1)%nat /\
    forall n, (n < length p + T - 1)%nat ->
      nth n l 0 = rsum (nc gains) (fun c => conv_sum (arriving p gains (h_a h) (di c) c) (hl c) n) /\
      nth n r 0 = rsum (nc gains) (fun c => conv_sum (arriving p gains (h_a h) (di c) c) (hh c) n).
Proof.
  intros HS HR Hf NR NC Q. unfold render_binaural_loudspeaker_sdm. rewrite NR, Nat.eqb_refl. cbn [assert_ bind].
  unfold loudspeaker_signals. rewrite NC, Nat.eqb_refl, NR, Nat.eqb_refl. cbn [assert_ bind].
  set (M := Mat _ _ _).
  assert (forall c, (c < nc gains)%nat -> radiated (arr2_of M) (h_a h) di c = arriving p gains (h_a h) (di c) c) as RA.
  { intros c C. unfold M. rewrite <- NC. apply radiated_arriving. exact C. }
  destruct (superposition_final h (arr2_of M) fs (0, 0) hr T az ze di hl hh
    (fun c => if heard_dec (radiated (arr2_of M) (h_a h) di c) then true else false) HS HR Hf) as (l & r & E & L1 & L2 & N).
  - unfold arr2_of. cbn [rows M nr]. rewrite map_length, seq_length. reflexivity.
  - apply arr2_rect.
  - intros c _. destruct (heard_dec (radiated (arr2_of M) (h_a h) di c)); intuition congruence.
  - exists l, r. change (cols (arr2_of M)) with (length p) in *. do 3 (split; [assumption|]).
    intros n Hn. destruct (N n Hn) as [N1 N2]. rewrite N1, N2, <- NC.
    split; apply rsum_ext; intros c C; rewrite RA by exact C; destruct (heard_dec (arriving p gains (h_a h) (di c) c)) as [Y|Y]; try reflexivity;
      symmetry; apply conv_sum_zero; destruct (Q c C) as [Q'|Q']; [contradiction|exact Q'|contradiction|exact Q'].
Qed.
Lemma conv_sum_at x h n : conv_sum x h n = moving_conv (length x) x (fun _ => h) n.
Proof. symmetry. apply moving_conv_const. Qed.
Lemma f_nearest_loudspeaker p gains h fs hr T az ze di hl hh s lo de sc : hrir_set hr T -> rendered_from h (0, 0) hr az ze di hl hh -> h_fs hr = fs ->
  nr gains = length p -> nc gains = length (h_points h) -> one_at_a_time gains s ->
  (forall i, (i < length p)%nat -> (s i < nc gains)%nat) ->
  (forall c, (c < nc gains)%nat -> di c = 1) ->
  (forall c, (c < nc gains)%nat -> heard (arriving p gains (h_a h) (di c) c) \/ forall v, In v (arriving p gains (h_a h) (di c) c) -> v = 0) ->
  exists l r, render_binaural_loudspeaker_sdm p gains h fs None hr = Ok (Some (l, r)) /\
    render_bsdm p (map (fun i => az (s i)) (seq 0 (length p))) (map (fun i => ze (s i)) (seq 0 (length p))) hr 1 lo de sc = Ok (l, r).
Proof.
  intros HS HR Hf NR NC O S1 D Q.
  destruct (f_loudspeakers p gains h fs hr T az ze di hl hh HS HR Hf NR NC Q) as (l & r & E & L1 & L2 & N).
  exists l, r. split; [exact E|].
  set (phi := map (fun i => az (s i)) (seq 0 (length p))). set (theta := map (fun i => ze (s i)) (seq 0 (length p))).
  assert (zipped p phi theta = length p) as Z by (unfold zipped, phi, theta; rewrite !map_length, !seq_length; lia).
  destruct (sequential_raw p phi theta hr T lo de sc HS) as (l' & r' & E' & L1' & L2' & M1 & M2).
  rewrite E'. rewrite Z in *.
  assert (forall n i, (i < length p)%nat -> contribution (resp_l hr) i (nth i (combine p (combine phi theta)) d0) n =
    (if (i <=? n)%nat then nth i p 0 * nth (n - i) (hl (s i)) 0 else 0)) as Cl.
  { intros n i I. rewrite nth_directions by (rewrite Z; exact I). unfold contribution, resp_l. cbn [fst snd].
    unfold phi, theta. rewrite !nth_map_seq by exact I.
    destruct (HR (s i)) as (_ & _ & _ & _ & _ & EN); [rewrite <- NC; apply S1; exact I|].
    cbn [fst snd] in EN. rewrite !Rminus_0_r in EN. rewrite EN. reflexivity. }
  assert (forall n i, (i < length p)%nat -> contribution (resp_r hr) i (nth i (combine p (combine phi theta)) d0) n =
    (if (i <=? n)%nat then nth i p 0 * nth (n - i) (hh (s i)) 0 else 0)) as Cr.
  { intros n i I. rewrite nth_directions by (rewrite Z; exact I). unfold contribution, resp_r. cbn [fst snd].
    unfold phi, theta. rewrite !nth_map_seq by exact I.
    destruct (HR (s i)) as (_ & _ & _ & _ & _ & EN); [rewrite <- NC; apply S1; exact I|].
    cbn [fst snd] in EN. rewrite !Rminus_0_r in EN. rewrite EN. reflexivity. }
  assert (forall (f : nat -> list R) n, rsum (nc gains) (fun c => conv_sum (arriving p gains (h_a h) (di c) c) (f c) n) =
    rsum (length p) (fun i => if (i <=? n)%nat then nth i p 0 * nth (n - i) (f (s i)) 0 else 0)) as G.
  { intros f n.
    transitivity (rsum (nc gains) (fun c => rsum (length p) (fun i => if (i <=? n)%nat then nth i p 0 * ent gains i c * nth (n - i) (f c) 0 else 0))).
    { apply rsum_ext. intros c C. rewrite conv_sum_at. unfold moving_conv, arriving. rewrite map_length, seq_length. apply rsum_ext. intros i I.
      rewrite nth_map_seq by exact I. rewrite (D c C). unfold Rpower. rewrite ln_1, Rmult_0_r, exp_0.
      destruct (i <=? n)%nat; [|reflexivity]. unfold Rdiv. rewrite Rinv_1, Rmult_1_r. reflexivity. }
    rewrite rsum_swap. apply rsum_ext. intros i I. destruct (i <=? n)%nat; [|apply rsum_0; auto].
    rewrite (rsum_single _ (s i)); [|apply S1; exact I|].
    - rewrite (O i (s i)) by (rewrite ?NR; auto). rewrite Nat.eqb_refl. lra.
    - intros c C Hc. rewrite (O i c) by (rewrite ?NR; auto). destruct (Nat.eqb_spec c (s i)); [contradiction|lra]. }
  do 2 f_equal; apply (nth_ext_list 0); try lia; intros n Hn.
  - rewrite M1, (rsum_ext _ _ _ (Cl n)). rewrite (proj1 (N n ltac:(lia))). symmetry. apply G.
  - rewrite M2, (rsum_ext _ _ _ (Cr n)). rewrite (proj2 (N n ltac:(lia))). symmetry. apply G.
Qed.
Lemma f_loudspeaker_checks p gains h fs post hr :
  (length p <> nr gains -> render_binaural_loudspeaker_sdm p gains h fs post hr = Err AssertionError) /\
  (length p = nr gains -> nc gains <> length (h_points h) -> render_binaural_loudspeaker_sdm p gains h fs post hr = Err AssertionError).
Proof.
  split.
  - intros N. unfold render_binaural_loudspeaker_sdm. rewrite (proj2 (Nat.eqb_neq _ _) N). reflexivity.
  - intros E N. unfold render_binaural_loudspeaker_sdm, loudspeaker_signals. rewrite (proj2 (Nat.eqb_eq _ _) E), (proj2 (Nat.eqb_neq _ _) N). reflexivity.
Qed.

(** * Examples and counterexamples *)
Definition same4 (l : list R) : ambib := AmbiB (Multi [Mono l 1; Mono l 1; Mono l 1; Mono l 1] 1 4) l l l l.
Lemma hann_3 : hann 3 0 = 0 /\ hann 3 1 = 1 /\ hann 3 2 = 0.
Proof.
  split; [apply hann_first|]. split; [|apply (hann_last 1); lia].
  unfold hann. change (INR (3 - 1)) with (1 + 1). change (INR 1) with 1. replace (PI * 1 / (1 + 1)) with (PI / 2) by lra.
  rewrite sin_PI2. unfold Rsqr. ring.
Qed.
Lemma product_3 W V j : (1 <= j)%nat -> windowed_product 1 W V j = nth j W 0 * nth j V 0.
Proof.
  intros J. unfold windowed_product. change (2 * 1 + 1)%nat with 3%nat. cbn [rsum]. destruct hann_3 as (-> & -> & ->).
  replace (j - 1 + 1)%nat with j by lia. ring.
Qed.
Lemma f_last_refuted : exists a n h out, multi_len (base a) = Ok n /\ long (bands a) n /\ (1 <= h)%nat /\ (2 * h + 1 <= n)%nat /\
  pseudo_intensity None a (odd h) 0 1 [] [] = Ok out /\
  windowed_product h (aW a) (aX a) (n - 1 - h) <> 0 /\ nth (n - 1 - h) out (0, None, 0) = (0, Some (PI / 2), 0).
Proof.
  set (a := same4 [1; 1; 1]).
  destruct (f_values None a (bands a) 3 1 0 [] []) as (out & E & L & N); [reflexivity|reflexivity|repeat split; cbn; lia|lia|left; lia|].
  exists a, 3%nat, 1%nat, out. split; [reflexivity|]. split; [repeat split; cbn; lia|]. split; [lia|]. split; [lia|]. split; [exact E|]. split.
  - rewrite product_3 by lia. cbn. lra.
  - apply (f_unvisited None a (bands a) 3 1 0 [] [] out); auto; repeat split; cbn; try lia; unfold visited; lia.
Qed.
Lemma f_trim_refuted : forall resample, exists a a' b outa outb,
  ambib_init (map arr1 (repeat [0; 1; 0; 0; 0] 4)) (Some 1%Z) = Ok a /\
  ambib_step resample a (OpTrim 1 5 None) = Ok a' /\
  ambib_init (map (fun c => arr1 (m_sig c)) (channels (base a'))) (Some 1%Z) = Ok b /\
  pseudo_intensity None a' 3 0 1 [] [] = Ok outa /\ pseudo_intensity None b 3 0 1 [] [] = Ok outb /\ outa <> outb.
Proof.
  intros rs. set (l := [0; 1; 0; 0; 0]). set (l' := [1; 0; 0; 0]).
  set (a := same4 l). set (a' := AmbiB (base (same4 l')) l l l l). set (b := same4 l').
  assert (ambib_step rs a (OpTrim 1 5 None) = Ok a') as T.
  { cbn [ambib_step base a same4]. unfold multi_trim, multi_len. cbn [channels bind mu_fs].
    unfold mono_len. cbn [m_sig length l].
    replace (Rltb 1 (INR 5 / 1)) with true by (symmetry; apply Rltb_true; cbn; lra).
    cbn [assert_ bind mapM]. rewrite !mono_set_arr1. cbn [bind m_sig m_fs aW aX aY aZ].
    unfold trim_slice. rewrite !Rmult_1_r, !py_int_IZR. reflexivity. }
  destruct (f_trim rs a 1 5 None a' 4 1 0 [] [] T) as (oa & Ea & La & Na); [reflexivity|repeat split; cbn; lia|lia|left; lia|].
  destruct (f_values None b (bands b) 4 1 0 [] []) as (ob & Eb & Lb & Nb); [reflexivity|reflexivity|repeat split; cbn; lia|lia|left; lia|].
  exists a, a', b, oa, ob. split; [reflexivity|]. split; [exact T|]. split; [reflexivity|]. split; [exact Ea|]. split; [exact Eb|].
  intros Q. assert (nth 1 oa (0, None, 0) = nth 1 ob (0, None, 0)) as C by (rewrite Q; reflexivity).
  rewrite Na, Nb in C by lia. apply (f_equal snd) in C. unfold cart2sph in C. cbn [snd] in C.
  unfold smoothing in C. change (0 <? 0)%Z with false in C. cbn match in C. unfold masked in C.
  change ((1 <=? 1) && (1 + 1 + 1 <? 4))%nat%bool with true in C. cbn match in C. rewrite !product_3 in C by lia.
  cbn [bands aW aX aY aZ a b same4 bW bX bY bZ l l' nth] in C.
  replace ((1 * 1) ^ 2 + (1 * 1) ^ 2 + (1 * 1) ^ 2) with 3 in C by ring. replace ((0 * 0) ^ 2 + (0 * 0) ^ 2 + (0 * 0) ^ 2) with 0 in C by ring.
  rewrite sqrt_0 in C. pose proof (sqrt_lt_R0 3). lra.
Qed.
Lemma ex_intensity : exists a out sched, multi_len (base a) = Ok 6%nat /\ long (bands a) 6 /\ dealt [[2; 0]; [1]]%nat (6 - (2 * 1 + 1)) /\
  (forall m, intensity_machine (bands a) 6 (odd 1) [[2; 0]; [1]]%nat = Ok m -> finished (steps m sched)) /\
  pseudo_intensity None a 3 5 2 [[2; 0]; [1]]%nat sched = Ok out /\ length out = 6%nat.
Proof.
  set (a := same4 [1; 2; 3; 4; 5; 6]). assert (long (bands a) 6) as L by (repeat split; cbn; lia).
  assert (dealt [[2; 0]; [1]]%nat (6 - (2 * 1 + 1))) as D.
  { unfold dealt. cbn. apply Permutation_sym. apply (Permutation_trans (l' := [2; 0; 1]%nat)); [|apply Permutation_refl].
    apply Permutation_sym. apply (Permutation_cons_app [0; 1]%nat []). apply Permutation_refl. }
  destruct (intensity_no_deadlock (bands a) 6 1 [[2; 0]; [1]]%nat _ [] L D (machine_ok _ _ _ _ L)) as [sched F].
  assert (forall m, intensity_machine (bands a) 6 (odd 1) [[2; 0]; [1]]%nat = Ok m -> finished (steps m sched)) as FF.
  { intros m E. rewrite machine_ok in E by exact L. injection E as <-. exact F. }
  destruct (f_values None a (bands a) 6 1 5 [] []) as (out & E & LL & _); [reflexivity|reflexivity|exact L|lia|right; exists 2%nat; reflexivity|].
  exists a, out, sched. do 4 (split; [assumption || reflexivity|]). split; [|exact LL].
  rewrite <- E. apply (intensity_jobs None a (bands a) 6 1); auto; lia.
Qed.
Lemma ex_doa : exists a sig, multi_len (base a) = Ok 5%nat /\ length sig = 5%nat /\ plane_wave a sig 1 (sph2cart 1 (PI / 2) 1) /\
  visited 5 1 2 /\ 1 / 10 ^ 7 <= Rabs (nth 2 sig 0) /\ - PI < 1 <= PI /\ 0 < PI / 2 < PI.
Proof.
  set (sig := [0; 1; -1; 2; 0]). set (u := sph2cart 1 (PI / 2) 1).
  exists (AmbiB (base (same4 sig)) (map (fun x => 1 * x) sig) (map (fun x => vx u * x) sig) (map (fun x => vy u * x) sig) (map (fun x => vz u * x) sig)), sig.
  pose proof PI_RGT_0. pose proof PI_ineq 0 as P. unfold tg_alt, PI_tg in P. cbn in P.
  split; [reflexivity|]. split; [reflexivity|]. split; [repeat split|]. split; [unfold visited; lia|].
  split; [cbn; unfold Rabs; destruct Rcase_abs; lra|]. split; [|lra]. lra.
Qed.

(** ** render_bsdm *)
Lemma two_dealt : dealt [[1]; [0]]%nat 2.
Proof. unfold dealt. cbn. apply perm_swap. Qed.
Lemma ex_bsdm : exists sched l r, hrir_set two_hrirs 2 /\ dealt [[1]; [0]]%nat (zipped [1; 2] [0; 1] [1; 1]) /\
  (forall m, bsdm_machine [1; 2] [0; 1] [1; 1] two_hrirs (length [1; 2] + 2 - 1) (fun _ => 7%nat) [[1]; [0]]%nat = Ok m -> finished (steps m sched)) /\
  render_bsdm [1; 2] [0; 1] [1; 1] two_hrirs 2 (fun _ => 7%nat) [[1]; [0]]%nat sched = Ok (l, r) /\ length l = 3%nat.
Proof.
  pose proof two_dealt as D. change 2%nat with (zipped [1; 2] [0; 1] [1; 1]) in D.
  pose proof (bsdm_machine_ok [1; 2] [0; 1] [1; 1] two_hrirs 2 3 (fun _ => 7%nat) [[1]; [0]]%nat two_set ltac:(cbn; lia)) as M.
  destruct (bsdm_no_deadlock [1; 2] [0; 1] [1; 1] two_hrirs 2 3 7 (fun _ => 7%nat) [[1]; [0]]%nat _ [] two_set ltac:(cbn; lia) D (fun _ => eq_refl) M) as [sched F].
  assert (forall m, bsdm_machine [1; 2] [0; 1] [1; 1] two_hrirs (length [1; 2] + 2 - 1) (fun _ => 7%nat) [[1]; [0]]%nat = Ok m -> finished (steps m sched)) as FF.
  { intros m E. pose proof (eq_trans (eq_sym E) M) as Q. injection Q as ->. exact F. }
  destruct (sequential_raw [1; 2] [0; 1] [1; 1] two_hrirs 2 (fun _ => 7%nat) [] [] two_set) as (l & r & E & L1 & _).
  exists sched, l, r. split; [apply two_set|]. split; [exact D|]. split; [exact FF|]. split; [|exact L1].
  rewrite <- E. apply (bsdm_parallel [1; 2] [0; 1] [1; 1] two_hrirs 2 2 7); auto; [apply two_set|lia].
Qed.
Definition one_hrir : hrirs := Hrirs [[1; 1]] [[1; 1]] [0] [PI / 2] 48000 1 2.
Lemma one_set : hrir_set one_hrir 2.
Proof. repeat split; try (cbn; lia); try discriminate; repeat constructor. Qed.
Lemma one_nearest a z : nearest_hrirs one_hrir a z = Ok ([1; 1], [1; 1]).
Proof. reflexivity. Qed.
(** each worker has a lock of its own *)
Definition two_writers (v : R) : machine :=
  Machine [0; 0; 0; 0; 0; 0] (fun _ => None)
    [([Acquire 0; Load 0; AddStore 0 v; Load 2; AddStore 2 v; Load 1; AddStore 1 v; Load 3; AddStore 3 v; Release 0], 0);
     ([Acquire 1; Load 2; AddStore 2 v; Load 4; AddStore 4 v; Load 3; AddStore 3 v; Load 5; AddStore 5 v; Release 1], 0)].
Definition late : list nat := repeat 0%nat 4 ++ repeat 1%nat 10 ++ repeat 0%nat 6.
Lemma two_writers_done v : map fst (workers (steps (two_writers v) late)) = [[]; []].
Proof. vm_compute. reflexivity. Qed.
Lemma two_writers_race v : nth 2 (cells (steps (two_writers v) late)) 0 = 0 + v.
Proof. vm_compute. reflexivity. Qed.
Lemma one_resp d : resp_l one_hrir d = [1; 1] /\ resp_r one_hrir d = [1; 1].
Proof. unfold resp_l, resp_r. rewrite one_nearest. split; reflexivity. Qed.
Lemma one_start : bsdm_start [1; 1] [0; 0] [0; 0] one_hrir 3 (fun w => w) [[0]; [1]]%nat = two_writers (1 * 1).
Proof.
  unfold bsdm_start, start, two_writers. cbn [length seq combine map nth flat_map app repeat Nat.mul Nat.add fst snd].
  unfold task_of. destruct (one_resp (1, (0, 0))) as [-> ->]. reflexivity.
Qed.
Lemma f_separate_locks_refuted : exists p phi theta hr T deal sched m l r l' r',
  hrir_set hr T /\ dealt deal (zipped p phi theta) /\
  bsdm_machine p phi theta hr (length p + T - 1) (fun w => w) deal = Ok m /\ finished (steps m sched) /\
  render_bsdm p phi theta hr 2 (fun w => w) deal sched = Ok (l, r) /\
  render_bsdm p phi theta hr 1 (fun w => w) deal sched = Ok (l', r') /\ nth 1 l 0 = 1 /\ nth 1 l' 0 = 2.
Proof.
  set (p := [1; 1]). set (d := [0; 0]). set (m := two_writers (1 * 1)).
  assert (bsdm_machine p d d one_hrir 3 (fun w => w) [[0]; [1]]%nat = Ok m) as M.
  { unfold m, p, d. rewrite <- one_start. apply (bsdm_machine_ok [1; 1] [0; 0] [0; 0] one_hrir 2); [apply one_set|cbn; lia]. }
  assert (finished (steps m late)) as F.
  { intros w. pose proof (two_writers_done (1 * 1)) as Q. fold m in Q.
    destruct (workers (steps m late)) as [|a [|b [|c q]]]; try discriminate Q. cbn [map] in Q. injection Q as Qa Qb.
    destruct w as [|[|w]]; [exact Qa|exact Qb|destruct w; reflexivity]. }
  destruct (bsdm_one_direction p 0 0 one_hrir 2 (fun w => w) [[0]; [1]]%nat late one_set) as (l' & r' & k & E & C & A & B & _).
  exists p, d, d, one_hrir, 2%nat, [[0]; [1]]%nat, late, m, (column2 3 (cells (steps m late)) 0), (column2 3 (cells (steps m late)) 1), l', r'.
  split; [apply one_set|]. split; [unfold dealt; cbn; apply Permutation_refl|].
  split; [exact M|]. split; [exact F|]. split.
  { unfold render_bsdm. change (np_zeros (Z.of_nat (length p) + Z.of_nat (h_taps one_hrir) - 1)) with (@Ok (list R) [0; 0; 0]).
    cbn [bind]. change (2 =? 1)%Z with false. change (2 <? 1)%Z with false. cbn match. change (length [0; 0; 0]) with 3%nat. rewrite M. reflexivity. }
  split; [exact E|]. split.
  - unfold column2. rewrite nth_map_seq by lia. change (2 * 1 + 0)%nat with 2%nat. unfold m. rewrite two_writers_race. lra.
  - rewrite A. destruct C as (ak & zk & K & _). destruct k as [|k]; [|destruct k; discriminate K]. cbn. lra.
Qed.

(** ** Loudspeakers *)
Definition unit_hull : hull := hull_of_points (fun _ => []) [(1, 0, 0); (0, 1, 0)].
Lemma ex_loudspeaker : exists az ze di hl hh,
  let gains := Mat 2 2 (fun i c => if (c =? i)%nat then 1 else 0) in
  hrir_set two_hrirs 2 /\ rendered_from unit_hull (0, 0) two_hrirs az ze di hl hh /\ h_fs two_hrirs = 48000%Z /\
  nr gains = length [1; 2] /\ nc gains = length (h_points unit_hull) /\ one_at_a_time gains (fun i => i) /\
  (forall c, (c < nc gains)%nat -> di c = 1) /\
  (forall c, (c < nc gains)%nat -> heard (arriving [1; 2] gains (h_a unit_hull) (di c) c)).
Proof.
  assert (forall p, In p (h_points unit_hull) -> p <> h_listener unit_hull) as Ap.
  { cbn. intros p [<-|[<-|[]]]; injection; lra. }
  destruct (directions_exist unit_hull (0, 0) two_hrirs 2 two_set Ap) as (az & ze & di & hl & hh & H).
  exists az, ze, di, hl, hh. cbv zeta. cbn [nr nc].
  assert (forall c, (c < 2)%nat -> di c = 1) as Ed.
  { intros c C. destruct (H c C) as (_ & _ & _ & _ & E & _). cbv zeta in E. apply (f_equal snd) in E. cbn [snd] in E. rewrite <- E.
    unfold cart2sph. destruct c as [|[|c]]; [| |lia]; cbn; replace (_ + _) with (1 * 1) by ring; apply sqrt_square; lra. }
  split; [apply two_set|]. split; [exact H|]. do 3 (split; [reflexivity|]).
  split; [intros i c _ _; reflexivity|]. split; [exact Ed|].
  intros c C. rewrite (Ed c C). unfold arriving. cbn [length seq map nth ent].
  change (h_a unit_hull) with 1. rewrite Rpower_1 by lra.
  destruct c as [|[|c]]; [| |lia]; cbn [Nat.eqb].
  - exists (1 * 1 / 1). split; [left; reflexivity|]. rewrite Rabs_pos_eq; lra.
  - exists (2 * 1 / 1). split; [right; left; reflexivity|]. rewrite Rabs_pos_eq; lra.
Qed.
Lemma ex_stereo : exists l r, render_stereo_sdm [3; -2; 5] [PI / 2; 0; - (PI / 2)] [1; 1; 1] = (l, r) /\
  nth 0 l 0 = 3 /\ nth 0 r 0 = 0 /\ nth 1 l 0 = nth 1 r 0 /\ nth 2 r 0 = 5.
Proof.
  destruct (render_stereo_sdm [3; -2; 5] [PI / 2; 0; - (PI / 2)] [1; 1; 1]) as [l r] eqn:E. exists l, r. split; [reflexivity|].
  destruct (f_stereo_sides _ _ _ _ _ 0 E ltac:(cbn; lia)) as (A & _). destruct (f_stereo_sides _ _ _ _ _ 1 E ltac:(cbn; lia)) as (_ & _ & B).
  destruct (f_stereo_sides _ _ _ _ _ 2 E ltac:(cbn; lia)) as (_ & C & _).
  destruct (A eq_refl) as [A1 A2]. destruct (C eq_refl) as [_ C2]. cbn [nth] in A1, A2, C2. rewrite A1, A2, C2, (B sin_0). auto.
Qed.
