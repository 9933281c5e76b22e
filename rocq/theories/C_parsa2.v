(** Properties of parsa.py, part 2: pseudo intensity, render_bsdm sequentially and in
    parallel, stereo and loudspeaker SDM (C33-C35, C42, C76, C77). *)
From Coq Require Import Permutation Lra Lia.
From Verif Require Import Base M_utils M_sig M_process M_sph0 M_sph M_decoder M_decoder2 M_decoder3 M_parsa2
  S_decoder3 S_parsa2 X_dec3 P_parsa7 P_parsa8 X_parsa2.
Open Scope R_scope.


(** ** C33 *)

Theorem C33_values : forall bp a b n h so de sc,
  filtered bp a b -> multi_len (base a) = Ok n -> long b n -> (1 <= h)%nat ->
  (so <= 0 \/ exists s, so = odd s)%Z ->
  exists out, pseudo_intensity bp a (odd h) so 1 de sc = Ok out /\ length out = n /\
    forall j, (j < n)%nat -> nth j out (0, None, 0) =
      cart2sph (smoothing so n (masked h n (bW b) (bX b)) j) (smoothing so n (masked h n (bW b) (bY b)) j)
               (smoothing so n (masked h n (bW b) (bZ b)) j) false true.
Proof. exact f_values. Qed.
Print Assumptions C33_values.
Theorem C33_parallel : forall bp a b n h so jobs deal sched de sc,
  filtered bp a b -> multi_len (base a) = Ok n -> long b n ->
  (2 <= jobs)%Z -> dealt deal (n - (2 * h + 1)) ->
  (forall m, intensity_machine b n (odd h) deal = Ok m -> finished (steps m sched)) ->
  pseudo_intensity bp a (odd h) so jobs deal sched = pseudo_intensity bp a (odd h) so 1 de sc.
Proof. exact f_jobs. Qed.
Print Assumptions C33_parallel.
Theorem C33_no_deadlock : forall b n h deal m sched,
  long b n -> dealt deal (n - (2 * h + 1)) ->
  intensity_machine b n (odd h) deal = Ok m -> exists rest, finished (steps m (sched ++ rest)).
Proof. exact intensity_no_deadlock. Qed.
Print Assumptions C33_no_deadlock.
Theorem C33_unvisited : forall bp a b n h so de sc out j,
  filtered bp a b -> multi_len (base a) = Ok n -> long b n -> (so <= 0)%Z ->
  pseudo_intensity bp a (odd h) so 1 de sc = Ok out -> (j < n)%nat -> ~ visited n h j ->
  nth j out (0, None, 0) = (0, Some (PI / 2), 0).
Proof. exact f_unvisited. Qed.
Print Assumptions C33_unvisited.
Theorem C33_last_window_refuted : exists a n h out, multi_len (base a) = Ok n /\ long (bands a) n /\ (1 <= h)%nat /\ (2 * h + 1 <= n)%nat /\
  pseudo_intensity None a (odd h) 0 1 [] [] = Ok out /\
  windowed_product h (aW a) (aX a) (n - 1 - h) <> 0 /\ nth (n - 1 - h) out (0, None, 0) = (0, Some (PI / 2), 0).
Proof. exact f_last_refuted. Qed.
Print Assumptions C33_last_window_refuted.
Theorem C33_window_one : forall bp a b n so de sc out j,
  filtered bp a b -> multi_len (base a) = Ok n -> long b n ->
  (so <= 0 \/ exists s, so = odd s)%Z ->
  pseudo_intensity bp a 1 so 1 de sc = Ok out -> (j < n)%nat -> nth j out (0, None, 0) = (0, Some (PI / 2), 0).
Proof. exact f_window_one. Qed.
Print Assumptions C33_window_one.
Theorem C33_checks : forall bp a wl so jobs de sc,
  ((wl mod 2 = 0)%Z -> pseudo_intensity bp a wl so jobs de sc = Err AssertionError) /\
  (forall b n, (wl mod 2 = 1)%Z -> (0 < so)%Z -> (so mod 2 = 0)%Z -> filtered bp a b -> multi_len (base a) = Ok n ->
     (exists h, wl = odd h) -> long b n -> jobs = 1%Z -> pseudo_intensity bp a wl so jobs de sc = Err AssertionError).
Proof. exact f_checks. Qed.
Print Assumptions C33_checks.
Theorem C33_after_trim : forall resample a start stop dur a' n h so de sc,
  ambib_step resample a (OpTrim start stop dur) = Ok a' -> multi_len (base a') = Ok n ->
  long (bands a) n -> (1 <= h)%nat -> (so <= 0 \/ exists s, so = odd s)%Z ->
  exists out, pseudo_intensity None a' (odd h) so 1 de sc = Ok out /\ length out = n /\
    forall j, (j < n)%nat -> nth j out (0, None, 0) =
      cart2sph (smoothing so n (masked h n (aW a) (aX a)) j) (smoothing so n (masked h n (aW a) (aY a)) j)
               (smoothing so n (masked h n (aW a) (aZ a)) j) false true.
Proof. exact f_trim. Qed.
Print Assumptions C33_after_trim.
Theorem C33_trim_refuted : forall resample, exists a a' b outa outb,
  ambib_init (map arr1 (repeat [0; 1; 0; 0; 0] 4)) (Some 1%Z) = Ok a /\
  ambib_step resample a (OpTrim 1 5 None) = Ok a' /\
  ambib_init (map (fun c => arr1 (m_sig c)) (channels (base a'))) (Some 1%Z) = Ok b /\
  pseudo_intensity None a' 3 0 1 [] [] = Ok outa /\ pseudo_intensity None b 3 0 1 [] [] = Ok outb /\ outa <> outb.
Proof. exact f_trim_refuted. Qed.
Print Assumptions C33_trim_refuted.
Example C33_nonvacuous : exists a out sched, multi_len (base a) = Ok 6%nat /\ long (bands a) 6 /\ dealt [[2; 0]; [1]]%nat (6 - (2 * 1 + 1)) /\
  (forall m, intensity_machine (bands a) 6 (odd 1) [[2; 0]; [1]]%nat = Ok m -> finished (steps m sched)) /\
  pseudo_intensity None a 3 5 2 [[2; 0]; [1]]%nat sched = Ok out /\ length out = 6%nat.
Proof. exact ex_intensity. Qed.

(** ** C34 *)

Theorem C34_parallel : forall p phi theta hr T jobs lo lock_of deal sched lo1 de1 sc1,
  hrir_set hr T -> (2 <= jobs)%Z ->
  dealt deal (zipped p phi theta) -> (forall w, lock_of w = lo) ->
  (forall m, bsdm_machine p phi theta hr (length p + T - 1) lock_of deal = Ok m -> finished (steps m sched)) ->
  render_bsdm p phi theta hr jobs lock_of deal sched = render_bsdm p phi theta hr 1 lo1 de1 sc1.
Proof. exact bsdm_parallel. Qed.
Print Assumptions C34_parallel.
Theorem C34_no_deadlock : forall p phi theta hr T n lo lock_of deal m sched,
  hrir_set hr T -> (length p + T <= S n)%nat ->
  dealt deal (zipped p phi theta) -> (forall w, lock_of w = lo) ->
  bsdm_machine p phi theta hr n lock_of deal = Ok m ->
  exists rest, finished (steps m (sched ++ rest)).
Proof. exact bsdm_no_deadlock. Qed.
Print Assumptions C34_no_deadlock.
Theorem C34_separate_locks_refuted : exists p phi theta hr T deal sched m l r l' r',
  hrir_set hr T /\ dealt deal (zipped p phi theta) /\
  bsdm_machine p phi theta hr (length p + T - 1) (fun w => w) deal = Ok m /\ finished (steps m sched) /\
  render_bsdm p phi theta hr 2 (fun w => w) deal sched = Ok (l, r) /\
  render_bsdm p phi theta hr 1 (fun w => w) deal sched = Ok (l', r') /\ nth 1 l 0 = 1 /\ nth 1 l' 0 = 2.
Proof. exact f_separate_locks_refuted. Qed.
Print Assumptions C34_separate_locks_refuted.
Example C34_nonvacuous : exists sched l r, hrir_set two_hrirs 2 /\ dealt [[1]; [0]]%nat (zipped [1; 2] [0; 1] [1; 1]) /\
  (forall m, bsdm_machine [1; 2] [0; 1] [1; 1] two_hrirs (length [1; 2] + 2 - 1) (fun _ => 7%nat) [[1]; [0]]%nat = Ok m -> finished (steps m sched)) /\
  render_bsdm [1; 2] [0; 1] [1; 1] two_hrirs 2 (fun _ => 7%nat) [[1]; [0]]%nat sched = Ok (l, r) /\ length l = 3%nat.
Proof. exact ex_bsdm. Qed.

(** ** C35 *)

Theorem C35_output : forall p phi theta hr T lo de sc,
  hrir_set hr T ->
  exists l r g, render_bsdm p phi theta hr 1 lo de sc = Ok (l, r) /\
    length l = (length p + T - 1)%nat /\ length r = (length p + T - 1)%nat /\
    (forall i, (i < zipped p phi theta)%nat -> closest hr (nth i phi 0) (nth i theta 0) (g i)) /\
    (forall n, nth n l 0 = moving_conv (zipped p phi theta) p (fun i => nth (g i) (h_left hr) []) n) /\
    (forall n, nth n r 0 = moving_conv (zipped p phi theta) p (fun i => nth (g i) (h_right hr) []) n).
Proof. exact bsdm_output. Qed.
Print Assumptions C35_output.
Theorem C35_linear : forall p q phi theta hr T a b lo de sc lp rp lq rq lc rc,
  hrir_set hr T -> length q = length p ->
  render_bsdm p phi theta hr 1 lo de sc = Ok (lp, rp) -> render_bsdm q phi theta hr 1 lo de sc = Ok (lq, rq) ->
  render_bsdm (combination a b p q) phi theta hr 1 lo de sc = Ok (lc, rc) ->
  lc = combination a b lp lq /\ rc = combination a b rp rq.
Proof. exact bsdm_linear. Qed.
Print Assumptions C35_linear.
Theorem C35_one_direction : forall p a z hr T lo de sc,
  hrir_set hr T -> exists l r k,
  render_bsdm p (repeat a (length p)) (repeat z (length p)) hr 1 lo de sc = Ok (l, r) /\ closest hr a z k /\
  (forall n, nth n l 0 = conv_sum p (nth k (h_left hr) []) n) /\
  (forall n, nth n r 0 = conv_sum p (nth k (h_right hr) []) n) /\
  (p <> [] -> l = convolve p (nth k (h_left hr) []) /\ r = convolve p (nth k (h_right hr) [])).
Proof. exact bsdm_one_direction. Qed.
Print Assumptions C35_one_direction.
Theorem C35_empty_grid : forall p phi theta hr jobs lo de sc,
  h_azi hr = [] -> (1 <= h_taps hr)%nat -> (1 <= zipped p phi theta)%nat ->
  render_bsdm p phi theta hr jobs lo de sc = Err ValueError.
Proof. exact bsdm_empty_grid. Qed.
Print Assumptions C35_empty_grid.
Example C35_nonvacuous : hrir_set two_hrirs 2 /\ exists l r g,
  render_bsdm [1; 2] [0; 1] [1; 1] two_hrirs 1 (fun w => w) [] [] = Ok (l, r) /\ length l = 3%nat /\
  nth 1 l 0 = moving_conv 2 [1; 2] (fun i => nth (g i) (h_left two_hrirs) []) 1.
Proof.
  split; [apply two_set|]. destruct (bsdm_output [1; 2] [0; 1] [1; 1] two_hrirs 2 (fun w => w) [] [] two_set) as (l & r & g & E & L & _ & _ & A & _).
  exists l, r, g. split; [exact E|]. split; [exact L|]. apply A.
Qed.


(** ** C42 *)

Theorem C42_gains : forall p phi theta l r,
  render_stereo_sdm p phi theta = (l, r) ->
  length l = length p /\ length r = length p /\
  (forall j, (j < zipped p phi theta)%nat ->
     nth j l 0 = nth j p 0 * gain_left (nth j phi 0) /\ nth j r 0 = nth j p 0 * (1 - gain_left (nth j phi 0))) /\
  (forall j, (zipped p phi theta <= j)%nat -> nth j l 0 = 0 /\ nth j r 0 = 0).
Proof. exact f_stereo. Qed.
Print Assumptions C42_gains.
Theorem C42_sum : forall p phi theta l r,
  render_stereo_sdm p phi theta = (l, r) ->
  (length p <= length phi)%nat -> (length p <= length theta)%nat -> forall j,
  nth j l 0 + nth j r 0 = nth j p 0 /\
  exists g, 0 <= g <= 1 /\ nth j l 0 = g * nth j p 0 /\ nth j r 0 = (1 - g) * nth j p 0.
Proof. exact f_stereo_sum. Qed.
Print Assumptions C42_sum.
Theorem C42_sides : forall p phi theta l r j,
  render_stereo_sdm p phi theta = (l, r) -> (j < zipped p phi theta)%nat ->
  (nth j phi 0 = PI / 2 -> nth j l 0 = nth j p 0 /\ nth j r 0 = 0) /\
  (nth j phi 0 = - (PI / 2) -> nth j l 0 = 0 /\ nth j r 0 = nth j p 0) /\
  (sin (nth j phi 0) = 0 -> nth j l 0 = nth j r 0).
Proof. exact f_stereo_sides. Qed.
Print Assumptions C42_sides.
Theorem C42_elevation_ignored : forall p phi theta theta',
  length theta = length theta' ->
  render_stereo_sdm p phi theta = render_stereo_sdm p phi theta'.
Proof. exact f_stereo_theta. Qed.
Print Assumptions C42_elevation_ignored.
Example C42_nonvacuous : exists l r, render_stereo_sdm [3; -2; 5] [PI / 2; 0; - (PI / 2)] [1; 1; 1] = (l, r) /\
  nth 0 l 0 = 3 /\ nth 0 r 0 = 0 /\ nth 1 l 0 = nth 1 r 0 /\ nth 2 r 0 = 5.
Proof. exact ex_stereo. Qed.

(** ** C76 *)

Theorem C76_direction : forall a n h so sig c azi zen de sc out j,
  multi_len (base a) = Ok n -> (n <= length sig)%nat -> (1 <= h)%nat ->
  (so <= 0 \/ exists s, so = odd s)%Z -> plane_wave a sig c (sph2cart azi zen 1) ->
  - PI < azi <= PI -> 0 < zen < PI -> (j < n)%nat ->
  10 / 10 ^ 15 <= c * smoothing so n (masked h n sig sig) j ->
  pseudo_intensity None a (odd h) so 1 de sc = Ok out ->
  nth j out (0, None, 0) = (azi, Some zen, c * smoothing so n (masked h n sig sig) j).
Proof. exact doa. Qed.
Print Assumptions C76_direction.
Theorem C76_loud_samples : forall a n h sig azi zen de sc out j,
  multi_len (base a) = Ok n -> (n <= length sig)%nat -> (1 <= h)%nat ->
  plane_wave a sig 1 (sph2cart azi zen 1) -> - PI < azi <= PI -> 0 < zen < PI -> visited n h j ->
  1 / 10 ^ 7 <= Rabs (nth j sig 0) ->
  pseudo_intensity None a (odd h) 0 1 de sc = Ok out ->
  exists r, nth j out (0, None, 0) = (azi, Some zen, r) /\ nth j sig 0 * nth j sig 0 <= r.
Proof. exact doa_loud. Qed.
Print Assumptions C76_loud_samples.
Theorem C76_encoded_source : forall a sig azi zen,
  let B := src_to_b sig [azi] [zen] in
  let row k := map (ent B k) (seq 0 (nc B)) in
  aW a = row 0%nat -> aX a = row 1%nat -> aY a = row 2%nat -> aZ a = row 3%nat ->
  plane_wave a sig 1 (sph2cart azi zen 1).
Proof. exact src_wave. Qed.
Print Assumptions C76_encoded_source.
Example C76_nonvacuous : exists a sig, multi_len (base a) = Ok 5%nat /\ length sig = 5%nat /\ plane_wave a sig 1 (sph2cart 1 (PI / 2) 1) /\
  visited 5 1 2 /\ 1 / 10 ^ 7 <= Rabs (nth 2 sig 0) /\ - PI < 1 <= PI /\ 0 < PI / 2 < PI.
Proof. exact ex_doa. Qed.

(** ** C77 *)

Theorem C77_superposition : forall p gains h fs hr T az ze di hl hh,
  hrir_set hr T -> rendered_from h (0, 0) hr az ze di hl hh -> h_fs hr = fs ->
  nr gains = length p -> nc gains = length (h_points h) ->
  (forall c, (c < nc gains)%nat -> heard (arriving p gains (h_a h) (di c) c) \/ forall v, In v (arriving p gains (h_a h) (di c) c) -> v = 0) ->
  exists l r, render_binaural_loudspeaker_sdm p gains h fs None hr = Ok (Some (l, r)) /\
    length l = (length p + T - 1)%nat /\ length r = (length p + T - 1)%nat /\
    forall n, (n < length p + T - 1)%nat ->
      nth n l 0 = rsum (nc gains) (fun c => conv_sum (arriving p gains (h_a h) (di c) c) (hl c) n) /\
      nth n r 0 = rsum (nc gains) (fun c => conv_sum (arriving p gains (h_a h) (di c) c) (hh c) n).
Proof. exact f_loudspeakers. Qed.
Print Assumptions C77_superposition.
Theorem C77_one_loudspeaker_at_a_time : forall p gains h fs hr T az ze di hl hh s lo de sc,
  hrir_set hr T -> rendered_from h (0, 0) hr az ze di hl hh -> h_fs hr = fs ->
  nr gains = length p -> nc gains = length (h_points h) -> one_at_a_time gains s ->
  (forall i, (i < length p)%nat -> (s i < nc gains)%nat) ->
  (forall c, (c < nc gains)%nat -> di c = 1) ->
  (forall c, (c < nc gains)%nat -> heard (arriving p gains (h_a h) (di c) c) \/ forall v, In v (arriving p gains (h_a h) (di c) c) -> v = 0) ->
  exists l r, render_binaural_loudspeaker_sdm p gains h fs None hr = Ok (Some (l, r)) /\
    render_bsdm p (map (fun i => az (s i)) (seq 0 (length p))) (map (fun i => ze (s i)) (seq 0 (length p))) hr 1 lo de sc = Ok (l, r).
Proof. exact f_nearest_loudspeaker. Qed.
Print Assumptions C77_one_loudspeaker_at_a_time.
Theorem C77_checks : forall p gains h fs post hr,
  (length p <> nr gains -> render_binaural_loudspeaker_sdm p gains h fs post hr = Err AssertionError) /\
  (length p = nr gains -> nc gains <> length (h_points h) -> render_binaural_loudspeaker_sdm p gains h fs post hr = Err AssertionError).
Proof. exact f_loudspeaker_checks. Qed.
Print Assumptions C77_checks.
Example C77_nonvacuous : exists az ze di hl hh,
  let gains := Mat 2 2 (fun i c => if (c =? i)%nat then 1 else 0) in
  hrir_set two_hrirs 2 /\ rendered_from unit_hull (0, 0) two_hrirs az ze di hl hh /\ h_fs two_hrirs = 48000%Z /\
  nr gains = length [1; 2] /\ nc gains = length (h_points unit_hull) /\ one_at_a_time gains (fun i => i) /\
  (forall c, (c < nc gains)%nat -> di c = 1) /\
  (forall c, (c < nc gains)%nat -> heard (arriving [1; 2] gains (h_a unit_hull) (di c) c)).
Proof. exact ex_loudspeaker. Qed.
