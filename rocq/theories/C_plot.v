(** Properties of plot.py: what is drawn (C88 - C93). *)
From Coq Require Import Lra Lia Permutation.
From Verif Require Import Base M_utils M_sig M_process M_sph0 M_sph M_grids M_decoder M_decoder2 M_decoder3 M_parsa3 M_decoder4 M_process2 M_plot S_sph S_sph2 S_decoder S_decoder2 S_decoder3 S_magls S_ctf S_plot P_plot2 P_plot3 P_plot4 P_plot5 P_plot6 P_plot7 X_dec1 X_plot.
Open Scope R_scope.


(** ** C88 *)

Theorem C88_spectrum : forall xs n fs scale todb sm ylim labels,
  xs <> [] -> (0 < n)%nat -> (forall x, In x xs -> length x = n) -> 0 < fs ->
  (match sm with Some n => 0 < n /\ is_tuple labels = false | None => True end) ->
  exists cu labels', spectrum xs fs scale todb sm ylim labels = Ok (cu, labels') /\
    cu_freq cu = map (fun k => INR k * fs / INR n) (seq 0 (n / 2 + 1)) /\ length (cu_mag cu) = length xs /\
    (forall i c0 A phi cN, (i < length xs)%nat -> partials n c0 A phi cN (nth i xs []) ->
       curve_of todb sm (map (fun k => (if scale then INR n / 2 else 1) * amplitude n c0 A cN k) (seq 0 (n / 2 + 1))) (nth i (cu_mag cu) [])) /\
    limits_ok ylim cu /\ legend_ok labels sm cu labels'.
Proof. exact spectrum_ok. Qed.
Print Assumptions C88_spectrum.
Theorem C88_tuple_labels : forall xs n fs scale todb sn ylim l,
  xs <> [] -> (0 < n)%nat -> (forall x, In x xs -> length x = n) -> 0 < fs -> 0 < sn ->
  spectrum xs fs scale todb (Some sn) ylim (LTuple l) = Err AttributeError.
Proof. exact spectrum_tuple. Qed.
Print Assumptions C88_tuple_labels.
Theorem C88_freq_resp_tuple : forall freq mag todb n ylim l,
  (0 < length freq)%nat -> (forall a, In a mag -> length a = length freq) -> 0 < n ->
  freq_resp freq mag todb (Some n) ylim (LTuple l) = Err AttributeError.
Proof. exact freq_resp_tuple. Qed.
Print Assumptions C88_freq_resp_tuple.
Theorem C88_octave_label_wrong : forall n, 0 < n -> IZR (py_int n) / 8 <> 1 / n.
Proof. exact f_label. Qed.
Print Assumptions C88_octave_label_wrong.
Theorem C88_mixed_lengths_refuted : exists cu labels, spectrum [ones 4; ones 5] 1 false false None (YPair 0 2) LNone = Ok (cu, labels) /\
  partials 5 1 (fun _ => 0) (fun _ => 0) 0 (ones 5) /\ nth 0 (nth 1 (cu_mag cu) []) NaN = Fin (5 / 4).
Proof. exact f_mixed. Qed.
Print Assumptions C88_mixed_lengths_refuted.
Example C88_nonvacuous : exists cu labels, spectrum [ones 4] 44100 false false None (YRange 60) LNone = Ok (cu, labels) /\
  cu_mag cu = [[Fin 1; Fin 0; Fin 0]] /\ cu_ylim cu = (-59, 1).
Proof. exact ex_spectrum. Qed.
Example C88_partials_nonvacuous : partials 4 1 (fun _ => 0) (fun _ => 0) 0 [1; 1; 1; 1].
Proof. exact ex_partials. Qed.

(** ** C89 *)

Theorem C89_map : forall h lf la lz n todb,
  float_array h lf n -> float_array h la n -> float_array h lz n -> la <> lf -> la <> lz ->
  exists fig h', spherical_function_map (ARef lf) (ARef la) (ARef lz) todb h = (Ok fig, h') /\
    length (mf_azi fig) = n /\ length (mf_zen fig) = n /\ length (mf_val fig) = n /\
    (forall i, (i < n)%nat -> same_direction (nth i (mf_azi fig) 0) (num h la i) /\ (- PI <= num h la i <= 3 * PI -> - PI <= nth i (mf_azi fig) 0 <= PI) /\
       nth i (mf_zen fig) 0 = num h lz i /\ nth i (mf_val fig) NaN = drawn todb (num h lf i)) /\
    (forall l, l <> la -> nth_error h' l = nth_error h l) /\
    (forall i, (i < n)%nat -> num h' la i = nth i (mf_azi fig) 0) /\
    (forall i, (i < n)%nat -> (num h' la i = num h la i <-> num h la i <= PI)).
Proof. exact f_map. Qed.
Print Assumptions C89_map.
Theorem C89_map_list : forall h lf xs lz todb,
  (lf < length h)%nat -> (lz < length h)%nat -> arrays_kept h (snd (spherical_function_map (ARef lf) (ALst xs) (ARef lz) todb h)).
Proof. exact f_map_list. Qed.
Print Assumptions C89_map_list.
Theorem C89_integer_azimuths_refuted : exists h lf la lz fig h', spherical_function_map (ARef lf) (ARef la) (ARef lz) false h = (Ok fig, h') /\
  num h la 0 = 4 /\ nth 0 (mf_azi fig) 0 = -2 /\ ~ same_direction (nth 0 (mf_azi fig) 0) (num h la 0).
Proof. exact f_int. Qed.
Print Assumptions C89_integer_azimuths_refuted.
Theorem C89_doa : forall h la lz n p m size c alpha fs,
  float_array h la n -> float_array h lz n -> la <> lz -> (0 < n)%nat -> doa_args n p m c alpha fs ->
  exists pts h', doa la lz p size c alpha fs h = (Ok pts, h') /\ length pts = n /\
    (forall i df, (i < n)%nat -> nth (n - 1 - i) pts df = DoaPoint (num h' la i) (num h lz i) (Some (doa_size p m (snd size) i)) (doa_color c fs i) (doa_alpha alpha i)) /\
    (forall i, (i < n)%nat -> (num h la i <= PI -> num h' la i = num h la i) /\
       (- PI < num h la i <= 2 * PI -> same_direction (num h' la i) (num h la i) /\ - PI < num h' la i <= PI) /\
       (2 * PI < num h la i <= 3 * PI -> num h' la i = num h la i - 3 * PI)) /\
    (forall l, l <> la -> nth_error h' l = nth_error h l).
Proof. exact f_doa. Qed.
Print Assumptions C89_doa.
Theorem C89_doa_number : forall h la lz n p m size c alpha fs,
  float_array h la n -> float_array h lz n -> la <> lz -> (0 < n)%nat -> doa_args n p m None None fs ->
  (exists x, c = Some (SNum x)) \/ ((c = None \/ exists l, c = Some (SArr l)) /\ exists x, alpha = Some (SNum x)) ->
  fst (doa la lz p size c alpha fs h) = Err TypeError /\
  forall i, (i < n)%nat -> PI < num h la i <= 2 * PI -> num (snd (doa la lz p size c alpha fs h)) la i = num h la i - 2 * PI.
Proof. exact f_number. Qed.
Print Assumptions C89_doa_number.
Theorem C89_doa_zero_rate : forall h la lz n p m size alpha,
  float_array h la n -> float_array h lz n -> la <> lz -> (0 < n)%nat -> doa_args n p m None alpha None ->
  fst (doa la lz p size None alpha (Some 0) h) = Err ZeroDivisionError /\ forall i, (i < n)%nat -> num (snd (doa la lz p size None alpha (Some 0) h)) la i = wrap_d (num h la i).
Proof. exact doa_zero_rate. Qed.
Print Assumptions C89_doa_zero_rate.
Theorem C89_doa_third_turn_refuted : exists pts h', doa 0 1 None (true, 1) None None None turn_heap = (Ok pts, h') /\ num turn_heap 0 0 = 5 * PI / 2 /\
  forall df, dp_azi (nth 0 pts df) = - (PI / 2).
Proof. exact f_opposite. Qed.
Print Assumptions C89_doa_third_turn_refuted.
Theorem C89_ild_itd : forall azi zen ilds itds pclims,
  ilds <> [] -> itds <> [] ->
  exists fig m1 m2, hrirs_ild_itd azi zen ilds itds pclims = Ok fig /\ if_zen fig = zen /\ if_ild fig = ilds /\ if_itd fig = map (fun t => 1000 * t) itds /\
    length (if_azi fig) = length azi /\
    (forall i, (i < length azi)%nat -> same_direction (nth i (if_azi fig) 0) (nth i azi 0) /\ (- PI <= nth i azi 0 -> - PI <= nth i (if_azi fig) 0 < PI)) /\
    if_ild_lim fig = (- m1, m1) /\ if_itd_lim fig = (- m2, m2) /\
    match fst pclims with Some g => m1 = g | None => largest m1 (map Rabs ilds) end /\
    match snd pclims with Some g => m2 = g | None => largest m2 (map (fun t => Rabs (1000 * t)) itds) end.
Proof. exact ild_ok. Qed.
Print Assumptions C89_ild_itd.
Theorem C89_ild_itd_refuted : exists fig, hrirs_ild_itd [- (3 * PI / 2)] [PI / 2] [1] [1] (None, None) = Ok fig /\ nth 0 (if_azi fig) 0 = - (3 * PI / 2).
Proof. exact f_off_map. Qed.
Print Assumptions C89_ild_itd_refuted.
Example C89_nonvacuous : float_array map_heap 0 2 /\ float_array map_heap 1 2 /\ float_array map_heap 2 2.
Proof. exact ex_map. Qed.
Example C89_doa_nonvacuous : doa_args 2 (Some [1; 3]) 3 (Some (SArr [1; 2])) None (Some 48000).
Proof. exact ex_doa. Qed.

(** ** C90 *)

Theorem C90_rms : forall ndesign F N vp w_n n_plot (todb : bool),
  ndesign n_plot = Ok vp -> (forall p, In p vp -> p <> (0, 0, 0)) -> nr F = ((N + 1) ^ 2)%nat -> (0 < nc F)%nat ->
  length (weights_drawn N w_n) = (N + 1)%nat ->
  exists azi zen v, (forall lo hi, shows_rms F N (samples_used (nc F)) (weights_drawn N w_n) todb vp (RmsFig azi zen v lo hi)) /\
  forall dflt clim, sh_rms_map ndesign dflt F todb w_n n_plot clim =
    match clim with
    | CDefault => (Ok (Some (RmsFig azi zen v (clim_low todb (fst dflt)) (snd dflt))), (clim_low todb (fst dflt), snd dflt), CDefault)
    | CList lo hi => (Ok (Some (RmsFig azi zen v (clim_low todb lo) hi)), dflt, CList (clim_low todb lo) hi)
    | CTuple (Some lo) hi => (Ok (Some (RmsFig azi zen v (Some lo) hi)), dflt, clim)
    | CTuple None hi => (Err TypeError, dflt, clim)
    end.
Proof. exact f_rms. Qed.
Print Assumptions C90_rms.
Theorem C90_plane_wave : forall N S azi zen s F vp fig,
  0 <= zen <= PI -> (0 < S)%nat -> plane_wave N S azi zen s F ->
  shows_rms F N (samples_used S) (weights_drawn N None) false vp fig ->
  forall i, (i < length vp + 6)%nat -> exists v, nth i (rf_rms fig) NaN = Fin v /\ 0 <= v <= root_mean_square (samples_used S) s /\
    (sph2cart (nth i (rf_azi fig) 0) (nth i (rf_zen fig) 0) 1 = sph2cart azi zen 1 -> v = root_mean_square (samples_used S) s).
Proof. exact plane_wave_map. Qed.
Print Assumptions C90_plane_wave.
Theorem C90_all_samples : forall S,
  (S <= 2 ^ 16)%nat \/ Nat.divide (2 ^ 16) S -> samples_used S = S.
Proof. exact used_all. Qed.
Print Assumptions C90_all_samples.
Theorem C90_default_limits : forall ndesign l,
  calls ndesign (None, None) l =
  (if existsb (fun c => match c with (F, todb, w, n, CDefault) => negb todb && drew ndesign c | _ => false end)%bool l then Some 0 else None, None).
Proof. exact f_history. Qed.
Print Assumptions C90_default_limits.
Theorem C90_default_limits_refuted : exists fig fig', sh_rms_map one_dir (None, None) dc_signal true None 1 CDefault = (Ok (Some fig), (None, None), CDefault) /\
  rf_vmin fig = None /\
  fst (fst (sh_rms_map one_dir (calls one_dir (None, None) [(dc_signal, false, None, 1%Z, CDefault)]) dc_signal true None 1 CDefault)) = Ok (Some fig') /\ rf_vmin fig' = Some 0.
Proof. exact f_limits. Qed.
Print Assumptions C90_default_limits_refuted.
Theorem C90_tail_refuted : exists fig, sh_rms_map one_dir (None, None) last_sample false None 1 CDefault = (Ok (Some fig), (Some 0, None), CDefault) /\
  (forall i, (i < 7)%nat -> nth i (rf_rms fig) NaN = Fin 0) /\
  forall azi zen, exists t, (t < nc last_sample)%nat /\ beam 0 (weights_drawn 0 None) last_sample azi zen t <> 0.
Proof. exact f_tail. Qed.
Print Assumptions C90_tail_refuted.
Example C90_nonvacuous : one_dir 1 = Ok [(1, 0, 0)] /\ (forall p, In p [(1, 0, 0)] -> p <> (0, 0, 0)) /\ nr dc_signal = ((0 + 1) ^ 2)%nat /\ (0 < nc dc_signal)%nat /\ length (weights_drawn 0 None) = 1%nat.
Proof. exact ex_rms. Qed.
Example C90_wave_nonvacuous : plane_wave 1 10 0 (PI / 2) (fun t => INR t) (Mat 4 10 (fun k t => INR t * sh_real (if Nat.eqb k 0 then 0 else 1) (if Nat.eqb k 0 then 0 else Z.of_nat k - 2) 0 (PI / 2))).
Proof. exact ex_wave. Qed.

(** ** C91 *)

Theorem C91_sums : forall h g dir,
  pm_amplitude (perf_measure h dir g) = lsum g /\ pm_energy (perf_measure h dir g) = lsum (map (fun x => x ^ 2) g).
Proof. exact f_sums. Qed.
Print Assumptions C91_sums.
Theorem C91_silent : forall h g dir,
  ls_ok h -> length g = length (h_points h) -> energy_at h g = 0 -> pm_spread (perf_measure h dir g) = 180 /\ pm_error (perf_measure h dir g) = None.
Proof. exact f_silent. Qed.
Print Assumptions C91_silent.
Theorem C91_vector : forall h g dir,
  ls_ok h -> length g = length (h_points h) -> dot3 dir dir = 1 -> energy_at h g <> 0 ->
  pm_spread (perf_measure h dir g) = degrees (2 * acos (norm3 (energy_vector h g))) /\
  (1 / 100000000000000 <= norm3 (energy_vector h g) -> pm_error (perf_measure h dir g) = Some (degrees (S_decoder.angle dir (energy_vector h g)))).
Proof. exact f_vector. Qed.
Print Assumptions C91_vector.
Theorem C91_ranges : forall h g dir,
  ls_ok h -> length g = length (h_points h) -> dot3 dir dir = 1 ->
  0 <= pm_spread (perf_measure h dir g) <= 180 /\ match pm_error (perf_measure h dir g) with Some e => 0 <= e <= 180 | None => energy_at h g = 0 end.
Proof. exact f_ranges. Qed.
Print Assumptions C91_ranges.
Theorem C91_cone : forall h g dir c,
  ls_ok h -> length g = length (h_points h) -> dot3 dir dir = 1 -> energy_at h g <> 0 -> 0 <= c <= 1 ->
  (forall l, (l < length (h_points h))%nat -> nth l g 0 <> 0 -> c <= dot3 dir (ls_dir h l)) ->
  exists e, pm_error (perf_measure h dir g) = Some e /\ e <= degrees (acos c).
Proof. exact f_cone. Qed.
Print Assumptions C91_cone.
Theorem C91_single : forall h g dir l,
  ls_ok h -> length g = length (h_points h) -> dot3 dir dir = 1 -> (l < length (h_points h))%nat -> nth l g 0 <> 0 -> (forall j, (j < length (h_points h))%nat -> j <> l -> nth j g 0 = 0) ->
  pm_amplitude (perf_measure h dir g) = nth l g 0 /\ pm_energy (perf_measure h dir g) = nth l g 0 ^ 2 /\ pm_spread (perf_measure h dir g) = 0 /\
  pm_error (perf_measure h dir g) = Some (degrees (S_decoder.angle dir (nth l (h_points h) (0, 0, 0)))).
Proof. exact f_single. Qed.
Print Assumptions C91_single.
Theorem C91_grid : forall sa se,
  0 < sa -> 0 < se ->
  (forall a z, - PI <= a <= PI -> 0 <= z <= PI -> exists ph th, In (ph, th) (perf_grid sa se) /\ Rabs (a - ph) <= sa * PI / 180 / 2 /\ Rabs (z - th) <= se * PI / 180 / 2) /\
  (forall ph th, In (ph, th) (perf_grid sa se) -> - PI <= ph < PI + sa * PI / 180 /\ 0 <= th < PI + se * PI / 180).
Proof. exact grid_ok. Qed.
Print Assumptions C91_grid.
Theorem C91_performance : forall lstsq3 pinv svd s r sa se N G s',
  perf_gains lstsq3 pinv svd s r (perf_grid sa se) N = (Ok (Some G), s') ->
  (forall row, In row G -> length row = length (h_points (s_hull s))) -> length G = length (perf_grid sa se) ->
  exists ms, decoder_performance lstsq3 pinv svd s r sa se N = (Ok (Some ms), s') /\ length ms = length (perf_grid sa se) /\
    forall i d, (i < length (perf_grid sa se))%nat -> nth i ms d = perf_measure (s_hull s') (grid_dir (nth i (perf_grid sa se) (0, 0))) (nth i G []).
Proof. exact perf_ok. Qed.
Print Assumptions C91_performance.
Theorem C91_nearest : forall s lstsq3 pinv svd sa se,
  ls_ok (s_hull s) -> h_points (s_hull s) <> [] ->
  exists ms, decoder_performance lstsq3 pinv svd s RNls sa se None = (Ok (Some ms), s) /\ length ms = length (perf_grid sa se) /\
  forall i d, (i < length (perf_grid sa se))%nat ->
    let dir := grid_dir (nth i (perf_grid sa se) (0, 0)) in let h := s_hull s in
    exists l, (l < length (h_points h))%nat /\
      (forall j, (j < length (h_points h))%nat -> S_decoder.angle dir (nth l (h_points h) (0, 0, 0)) <= S_decoder.angle dir (nth j (h_points h) (0, 0, 0))) /\
      pm_error (nth i ms d) = Some (degrees (S_decoder.angle dir (nth l (h_points h) (0, 0, 0)))) /\ pm_spread (nth i ms d) = 0 /\
      pm_amplitude (nth i ms d) = Rpower (norm3 (nth l (h_points h) (0, 0, 0))) (h_a h) /\
      pm_energy (nth i ms d) = Rpower (norm3 (nth l (h_points h) (0, 0, 0))) (h_a h) ^ 2.
Proof. exact f_nearest. Qed.
Print Assumptions C91_nearest.
Theorem C91_vbap : forall s lstsq3 pinv svd sa se,
  ls_ok (s_hull s) -> lstsq3_contract lstsq3 -> h_vbase (s_hull s) = None ->
  Forall (in_range (length (h_points (s_hull s)))) (h_valid (s_hull s)) -> Forall (independent (h_points (s_hull s))) (h_valid (s_hull s)) ->
  exists ms s', decoder_performance lstsq3 pinv svd s RVbap sa se None = (Ok (Some ms), s') /\ length ms = length (perf_grid sa se) /\
  forall i d, (i < length (perf_grid sa se))%nat ->
    let dir := grid_dir (nth i (perf_grid sa se) (0, 0)) in let h := s_hull s in
    exists row, panning_row (POrd 2) h (h_valid h) dir row /\ nth i ms d = perf_measure h dir row /\
      ((exists f, In f (h_valid h) /\ inside_cone (h_points h) f dir) -> energy_at h row = 1 /\ pm_error (nth i ms d) <> None) /\
      ((forall f g, In f (h_valid h) -> ~ pans (POrd 2) (h_points h) f dir g) -> pm_error (nth i ms d) = None /\ pm_spread (nth i ms d) = 180) /\
      ((forall p, In p (h_points h) -> norm3 p = 1) -> pm_energy (nth i ms d) = 1 \/ pm_energy (nth i ms d) = 0).
Proof. exact f_vbap. Qed.
Print Assumptions C91_vbap.
Theorem C91_unit_gain_refuted : forall lstsq3 pinv svd sa se,
  exists ms, decoder_performance lstsq3 pinv svd (Setup far_hull None None None) RNls sa se None = (Ok (Some ms), Setup far_hull None None None) /\
  length ms = length (perf_grid sa se) /\ forall i d, (i < length (perf_grid sa se))%nat -> pm_amplitude (nth i ms d) = 2 /\ pm_energy (nth i ms d) = 4.
Proof. exact f_unity. Qed.
Print Assumptions C91_unit_gain_refuted.
Example C91_nonvacuous : ls_ok ex_hull.
Proof. exact ex_ls. Qed.
Example C91_energy_nonvacuous : energy_at ex_hull [1; 2; 2; 0] = 9.
Proof. exact ex_energy. Qed.
Example C91_far_nonvacuous : ls_ok far_hull.
Proof. exact far_ok. Qed.
Example C91_vbap_nonvacuous : ls_ok ex_hull /\ (exists lstsq3, lstsq3_contract lstsq3) /\ h_vbase ex_hull = None /\ Forall (in_range (length (h_points ex_hull))) (h_valid ex_hull) /\ Forall (independent (h_points ex_hull)) (h_valid ex_hull) /\
  (forall p, In p (h_points ex_hull) -> norm3 p = 1).
Proof. exact ex_vbap_setup. Qed.

(** ** C92 *)

Theorem C92_transfer : forall freq H,
  length freq = length H -> exists mag ph, transfer_function freq H = Ok (mag, ph) /\ length mag = length H /\ length ph = length H /\
  forall k, (k < length H)%nat -> let z := nth k H (0, 0) in
    (1 / 100000000000000 < fst z -> exists r p, nth k mag NaN = Fin (decibel r) /\ nth k ph 0 = p /\ 0 < r /\ - (PI / 2) < p < PI / 2 /\ z = (r * cos p, r * sin p)) /\
    (fst z < 1 / 100000000000000 -> nth k mag NaN = Fin (-280) /\ nth k ph 0 = 0) /\
    (fst z = 1 / 100000000000000 -> exists r p, nth k mag NaN = Fin (decibel r) /\ nth k ph 0 = p /\ 0 < r /\ - (PI / 2) < p < PI / 2 /\ (fst z, Rmax 0 (snd z)) = (r * cos p, r * sin p)).
Proof. exact transfer_ok. Qed.
Print Assumptions C92_transfer.
Theorem C92_mismatch : forall freq H,
  length freq <> length H -> transfer_function freq H = Err ValueError.
Proof. exact transfer_mismatch. Qed.
Print Assumptions C92_mismatch.
Theorem C92_polar : forall theta r (todb : bool) rlim,
  length theta = length r -> exists fig, M_plot.polar theta r todb rlim = Ok fig /\ po_theta fig = theta /\
  length (po_pos fig) = length r /\ length (po_neg fig) = length r /\
  (forall i, (i < length r)%nat ->
     (0 <= nth i r 0 -> nth i (po_pos fig) NaN = drawn todb (nth i r 0) /\ nth i (po_neg fig) NaN = NaN) /\
     (nth i r 0 < 0 -> nth i (po_pos fig) NaN = NaN /\ nth i (po_neg fig) NaN = drawn todb (- nth i r 0))) /\
  po_rlim fig = match rlim with Some (lo, hi) => (lo, hi + (if todb then 1 / 2 else 3 / 100)) | None => if todb then (-40, 1 / 2) else (0, 103 / 100) end.
Proof. exact polar_ok. Qed.
Print Assumptions C92_polar.
Theorem C92_transfer_refuted : exists mag ph, transfer_function [1000] [(-1, 0)] = Ok (mag, ph) /\ mag = [Fin (-280)] /\ ph = [0] /\ decibel (cabs (-1, 0)) = 0.
Proof. exact f_transfer. Qed.
Print Assumptions C92_transfer_refuted.
Example C92_nonvacuous : length [1000; 2000] = length [(1, 1); (2, -1)] /\ 1 / 100000000000000 < fst (nth 0 [(1, 1); (2, -1)] (0, 0)).
Proof. exact ex_transfer. Qed.

(** ** C93 *)

Theorem C93_hull_drawn : forall h ss mark color lim,
  faces_of h ss <> [] -> h_points h <> [] -> (forall c, color = Some c -> length c = length (faces_of h ss)) -> exists fig, plot_hull h ss mark color lim = Ok fig /\ (forall x, lim = Some x -> hf_lim fig = x).
Proof. exact f_hull_drawn. Qed.
Print Assumptions C93_hull_drawn.
Theorem C93_hull_faces : forall h ss mark color lim fig,
  Forall distinct (h_valid h) -> Forall distinct (faces_of h ss) -> plot_hull h ss mark color lim = Ok fig ->
  Permutation (hf_valid fig ++ hf_invalid fig) (faces_of h ss) /\
  (mark = true -> (forall f, In f (hf_valid fig) -> exists g, In g (h_valid h) /\ same_vertices f g) /\ (forall f, In f (hf_invalid fig) -> ~ exists g, In g (h_valid h) /\ same_vertices f g)) /\
  (mark = false -> hf_valid fig = faces_of h ss).
Proof. exact hull_faces. Qed.
Print Assumptions C93_hull_faces.
Theorem C93_hull_colors : forall h ss mark c lim fig,
  plot_hull h ss mark (Some c) lim = Ok fig -> hf_valid fig = faces_of h ss -> hf_color fig = Some c.
Proof. exact hull_colors. Qed.
Print Assumptions C93_hull_colors.
Theorem C93_hull_color_mismatch : forall h ss mark c lim,
  length c <> length (faces_of h ss) -> exists e, plot_hull h ss mark (Some c) lim = Err e.
Proof. exact hull_color_len. Qed.
Print Assumptions C93_hull_color_mismatch.
Theorem C93_hull_limits : forall h ss mark color fig p,
  plot_hull h ss mark color None = Ok fig -> In p (h_points h) ->
  Rabs (vx p) < hf_lim fig /\ Rabs (vy p) < hf_lim fig /\ Rabs (vz p) < hf_lim fig.
Proof. exact hull_lim. Qed.
Print Assumptions C93_hull_limits.
Theorem C93_aspect : forall x y z,
  let l := aspect_limits None x y z in
  (forall q, In q [x; y; z] -> fst l <= fst q /\ snd q <= snd l) /\ (exists q, In q [x; y; z] /\ fst l = fst q) /\ (exists q, In q [x; y; z] /\ snd l = snd q).
Proof. exact aspect_ok. Qed.
Print Assumptions C93_aspect.
Theorem C93_balloon : forall N a sa se,
  0 < sa -> 0 < se -> length a = ((N + 1) ^ 2)%nat -> exists pts, sh_coeffs a sa se = Ok pts /\ length pts = length (balloon_grid sa se) /\
  forall i d, (i < length (balloon_grid sa se))%nat -> let '(azi, zen) := nth i (balloon_grid sa se) (0, 0) in
    let v := field_value sh_real N a azi zen in
    fst (nth i pts d) = scal3 (Rabs v) (sph2cart azi zen 1) /\ snd (nth i pts d) = if Rlt_dec v 0 then PI else 0.
Proof. exact balloon_ok. Qed.
Print Assumptions C93_balloon.
Theorem C93_balloon_grid : forall sa se na ne,
  0 < sa -> 0 < se -> whole_steps 360 sa na -> whole_steps 180 se ne -> length (balloon_grid sa se) = (ne * na)%nat /\
  forall j i, (j < ne)%nat -> (i < na)%nat -> nth (j * na + i) (balloon_grid sa se) (0, 0) =
    (INR i * (2 * PI / INR (na - 1)), 1 / 10000000 + INR j * ((PI - 2 / 10000000) / INR (ne - 1))).
Proof. exact balloon_points. Qed.
Print Assumptions C93_balloon_grid.
Theorem C93_balloon_steps : forall a sa se,
  sh_coeffs a 0 se = Err ZeroDivisionError /\ (0 < sa -> sh_coeffs a sa 0 = Err ZeroDivisionError) /\
  (sa < 0 -> - sa <= 360 -> sh_coeffs a sa se = Err ValueError) /\ (0 < sa -> se < 0 -> - se <= 180 -> sh_coeffs a sa se = Err ValueError).
Proof. exact balloon_steps. Qed.
Print Assumptions C93_balloon_steps.
Theorem C93_function : forall f azi zen,
  length azi = length f -> length zen = length f -> f <> [] -> exists pts lo hi, spherical_function f azi zen = Ok (pts, f, (lo, hi)) /\
  length pts = length f /\ (forall i, (i < length f)%nat -> nth i pts (0, 0, 0) = scal3 (Rabs (nth i f 0)) (sph2cart (nth i azi 0) (nth i zen 0) 1) /\ lo <= nth i f 0 <= hi) /\
  lo <= 0 /\ 1 <= hi.
Proof. exact sf_ok. Qed.
Print Assumptions C93_function.
Theorem C93_bars : forall x L g,
  x <> [] -> (0 < L)%nat -> (0 < g)%nat -> (forall r, In r x -> length r = L) -> Nat.divide g (length x) -> exists cells ticks, sh_bar x g = Ok (cells, ticks) /\
  length ticks = length x /\ (forall r, (r < length x)%nat -> nth r ticks 0 = bar_tick g r) /\ length cells = (length x * L)%nat /\
  forall r l, (r < length x)%nat -> (l < L)%nat -> nth (r * L + l) cells (0, 0%nat, 0) = (bar_tick g r, l, nth l (nth r x []) 0).
Proof. exact f_bar. Qed.
Print Assumptions C93_bars.
Theorem C93_bars_general : forall x L g,
  x <> [] -> (0 < L)%nat -> (0 < g)%nat -> (forall r, In r x -> length r = L) -> exists cells ticks, sh_bar x g = Ok (cells, ticks) /\
  length ticks = (length x / g * g)%nat /\ (forall r, (r < length ticks)%nat -> nth r ticks 0 = bar_tick g r) /\
  length cells = (length ticks * L)%nat /\
  forall r l, (r < length ticks)%nat -> (l < L)%nat -> nth (r * L + l) cells (0, 0%nat, 0) = (bar_tick g r, l, nth l (nth r x []) 0).
Proof. exact bar_ok. Qed.
Print Assumptions C93_bars_general.
Theorem C93_hull_colors_refuted : exists fig, plot_hull (set_valid ex_hull [(0, 1, 3)%nat]) (Some two_faces) true (Some [10; 20]) (Some 2) = Ok fig /\
  hf_valid fig = [(0, 1, 3)%nat] /\ hf_invalid fig = [(0, 1, 2)%nat] /\ hf_color fig = Some [10] /\ nth 1 two_faces (0, 0, 0)%nat = (0, 1, 3)%nat /\ nth 1 [10; 20] 0 = 20.
Proof. exact f_colors. Qed.
Print Assumptions C93_hull_colors_refuted.
Theorem C93_bars_dropped_refuted : exists cells ticks, sh_bar [[1]; [2]; [3]] 2 = Ok (cells, ticks) /\ length ticks = 2%nat /\ forall c, In c cells -> snd c <> 3.
Proof. exact f_dropped. Qed.
Print Assumptions C93_bars_dropped_refuted.
Example C93_nonvacuous : Forall distinct (h_valid ex_hull) /\ Forall distinct (faces_of ex_hull None) /\ exists fig, plot_hull ex_hull None true None (Some 2) = Ok fig /\ hf_valid fig = h_simplices ex_hull.
Proof. exact ex_hull_fig. Qed.
Example C93_bars_nonvacuous : exists cells ticks, sh_bar [[1; 2]; [3; 4]] 2 = Ok (cells, ticks) /\ ticks = [- (1 / 4); 1 / 4] /\ nth 3 cells (0, 0%nat, 0) = (1 / 4, 1%nat, 4).
Proof. exact ex_bar. Qed.
Example C93_balloon_nonvacuous : length [1; 0; 0; 1] = ((1 + 1) ^ 2)%nat /\ (0 < length (balloon_grid 5 3))%nat.
Proof. exact ex_balloon. Qed.
Example C93_balloon_grid_nonvacuous : 0 < 5 /\ 0 < 3 /\ whole_steps 360 5 72 /\ whole_steps 180 3 60 /\ whole_steps 360 7 51.
Proof. exact ex_steps. Qed.
