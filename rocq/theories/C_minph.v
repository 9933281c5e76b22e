(** The minimum phase equaliser (C118). *)
From Verif Require Import Base M_utils M_sig M_process M_sph M_grids M_decoder4 M_process2 M_minph S_process S_decoder3 S_magls S_ctf S_minph X_ctf P_minph2 P_minph3 P_minph4 X_minph.
Open Scope R_scope.

(** ** C118 *)
Theorem C118_response : forall newer h,
  (3 <= length h)%nat -> (exists t, nth t h 0 <> 0) ->
  exists n u, transform_size (length h) n /\ minimum_phase_of newer h n u /\ minimum_phase newer h = Ok (firstn (length h / 2 + length h mod 2) u).
Proof. exact minimum_ok. Qed.
Print Assumptions C118_response.
Theorem C118_determined : forall newer h n u,
  (3 <= length h)%nat -> transform_size (length h) n -> (exists t, nth t h 0 <> 0) ->
  (minimum_phase_of newer h n u -> minimum_phase newer h = Ok (firstn (length h / 2 + length h mod 2) u)) /\
  forall u', minimum_phase_of newer h n u -> minimum_phase_of newer h n u' -> u = u'.
Proof. exact f_value. Qed.
Print Assumptions C118_determined.
Theorem C118_gain : forall h n u,
  (2 <= length h)%nat -> transform_size (length h) n -> minimum_phase_of true h n u ->
  exists m, least_gain n h m /\ forall k, (k < n)%nat ->
    modulus (dft n u k) = sqrt (lifted n h m k) * exp (- ((-1) ^ k * cepstrum n h m (n / 2))).
Proof. exact gain_newer. Qed.
Print Assumptions C118_gain.
Theorem C118_flat : forall newer h n a,
  (3 <= length h)%nat -> transform_size (length h) n -> 0 < a -> (forall k, (k < n)%nat -> modulus (dft n h k) = a) ->
  minimum_phase newer h = Ok (first_pulse (length h / 2 + length h mod 2) (sqrt (a * (1 + 1 / 10 ^ 7)))).
Proof. exact minimum_flat. Qed.
Print Assumptions C118_flat.
Theorem C118_pulse : forall newer h d a,
  (3 <= length h)%nat -> (d < length h)%nat -> a <> 0 -> (forall t, (t < length h)%nat -> nth t h 0 = if Nat.eqb t d then a else 0) ->
  minimum_phase newer h = Ok (first_pulse (length h / 2 + length h mod 2) (sqrt (Rabs a * (1 + 1 / 10 ^ 7)))).
Proof. exact minimum_pulse. Qed.
Print Assumptions C118_pulse.
Theorem C118_gains_only : forall newer h h' n,
  transform_size (length h) n -> length h' = length h -> (forall k, (k < n)%nat -> modulus (dft n h' k) = modulus (dft n h k)) -> minimum_phase newer h' = minimum_phase newer h.
Proof. exact same_gains. Qed.
Print Assumptions C118_gains_only.
Theorem C118_scaled : forall newer h c,
  c <> 0 -> minimum_phase newer (map (Rmult c) h) = match minimum_phase newer h with Ok y => Ok (map (Rmult (sqrt (Rabs c))) y) | Err e => Err e end.
Proof. exact minimum_scaled. Qed.
Print Assumptions C118_scaled.
Theorem C118_errors : forall newer h,
  (length h <= 2)%nat \/ (forall t, nth t h 0 = 0) -> minimum_phase newer h = Err ValueError.
Proof. exact minimum_errors. Qed.
Print Assumptions C118_errors.
Theorem C118_flat_equaliser : forall pinv cond newer hr lims gw w lo hi i al ar,
  weights_used pinv cond hr gw w -> ctf_setup hr w lims lo hi i -> (5 <= i)%nat ->
  all_pulses (h_left hr) (h_taps hr) al -> all_pulses (h_right hr) (h_taps hr) ar ->
  let el := rsum (length w) (fun g => nth g w 0 * al g ^ 2) in let er := rsum (length w) (fun g => nth g w 0 * ar g ^ 2) in
  0 <= el -> 0 <= er -> 0 < el + er ->
  hrirs_ctf pinv cond (minph newer) hr true lims gw = Ok (Some (first_pulse (h_taps hr) trim)).
Proof. exact flat_equaliser. Qed.
Print Assumptions C118_flat_equaliser.
Theorem C118_flat_equalised : forall pinv cond newer hr w lo hi i al ar,
  rectangular hr -> calculate_grid_weights pinv cond (h_azi hr) (h_zen hr) (Some 5%Z) = Ok w ->
  ctf_setup hr w (125, 10000) lo hi i -> (5 <= i)%nat -> all_pulses (h_left hr) (h_taps hr) al -> all_pulses (h_right hr) (h_taps hr) ar ->
  let el := rsum (length w) (fun g => nth g w 0 * al g ^ 2) in let er := rsum (length w) (fun g => nth g w 0 * ar g ^ 2) in
  0 <= el -> 0 <= er -> 0 < el + er ->
  exists hr', apply_ctf_eq pinv cond (minph newer) hr None Full = Ok (Some hr') /\ h_taps hr' = (2 * h_taps hr - 1)%nat /\
    Forall2 (fun x y => forall t, nth t y 0 = trim * nth t x 0) (h_left hr) (h_left hr') /\
    Forall2 (fun x y => forall t, nth t y 0 = trim * nth t x 0) (h_right hr) (h_right hr').
Proof. exact flat_equalised. Qed.
Print Assumptions C118_flat_equalised.
Theorem C118_trim : 1 < trim < 1 + 1 / 10 ^ 7.
Proof. exact trim_gt. Qed.
Print Assumptions C118_trim.
Theorem C118_equaliser_gains : forall pinv cond hr j lims gw w lo hi i,
  h_taps hr = (2 ^ j)%nat -> weights_used pinv cond hr gw w -> ctf_setup hr w lims lo hi i ->
  audible w (h_left hr) (h_right hr) (16 * h_taps hr) -> (5 <= i)%nat ->
  exists s u a q, hrirs_ctf pinv cond (minph true) hr true lims gw = Ok (Some (firstn (h_taps hr) u)) /\ common_level w (h_left hr) (h_right hr) (16 * h_taps hr) s /\
    0 < a /\ length u = (16 * h_taps hr * q)%nat /\
    forall k, (k <= 8 * h_taps hr)%nat -> let c := correction lo hi (8 * h_taps hr + 1) i s k in
      0 < c /\ a * c <= modulus (dft (16 * h_taps hr * q) u (q * k)) <= a * trim * c.
Proof. exact equaliser_gains. Qed.
Print Assumptions C118_equaliser_gains.
Theorem C118_flat_unchanged_refuted : exists hr w lo hi i al ar, ctf_setup hr w (125, 10000) lo hi i /\ (5 <= i)%nat /\ all_pulses (h_left hr) (h_taps hr) al /\ all_pulses (h_right hr) (h_taps hr) ar /\
  forall pinv cond newer, exists e, hrirs_ctf pinv cond (minph newer) hr true (125, 10000) (Some w) = Ok (Some e) /\ e <> first_pulse (h_taps hr) 1.
Proof. exact f_changed. Qed.
Print Assumptions C118_flat_unchanged_refuted.
Example C118_nonvacuous : forall newer, let hr := two_pulses 128 48000 in h_taps hr = (2 ^ 7)%nat /\ ctf_setup hr [2 * PI; 2 * PI] (125, 10000) 5 427 43 /\
  audible [2 * PI; 2 * PI] (h_left hr) (h_right hr) (16 * h_taps hr) /\
  hrirs_ctf (fun A => A) (fun _ => 1) (minph newer) hr true (125, 10000) (Some [2 * PI; 2 * PI]) = Ok (Some (first_pulse 128 trim)).
Proof. exact ex_two. Qed.
Example C118_nonvacuous_filter : (3 <= @length R [1; 2; 1]%R)%nat /\ transform_size (@length R [1; 2; 1]%R) 512 /\ (exists t, nth t [1; 2; 1]%R 0%R <> 0%R) /\ exists u, minimum_phase_of true [1; 2; 1] 512 u /\ minimum_phase true [1; 2; 1] = Ok (firstn 2 u).
Proof. exact ex_121. Qed.
