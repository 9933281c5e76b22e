(** Properties of decoder.py, part 4: magls_bin (C83, C84). *)
From Coq Require Import Lra Lia.
From Verif Require Import Base M_utils M_sig M_process M_sph M_decoder4 S_grids S_lsq S_magls P_magls3 P_magls5 X_magls.
Open Scope R_scope.


(** ** C83 *)

Theorem C83_result : forall pinv hr N f_trans Y n kc cont hf,
  magls_setup pinv hr N f_trans Y n kc -> cont_ok cont kc -> (32 <= h_taps hr)%nat ->
  exists l r, magls_bin pinv hr N f_trans cont hf = Ok (l, r) /\
    magls_result Y (h_left hr) n (h_taps hr) kc cont (2 * PI * fst hf / INR n) l /\
    magls_result Y (h_right hr) n (h_taps hr) kc cont (2 * PI * snd hf / INR n) r.
Proof. exact magls_ok. Qed.
Print Assumptions C83_result.
Theorem C83_too_few_bins : forall pinv hr N f_trans Y n kc cont hf,
  magls_setup pinv hr N f_trans Y n kc -> (kc <= 5)%nat -> cont = Avg \/ cont = Angle ->
  magls_bin pinv hr N f_trans cont hf = Err AssertionError.
Proof. exact magls_too_few. Qed.
Print Assumptions C83_too_few_bins.
Theorem C83_order_zero : forall pinv hr Y cont hf,
  (0 < h_fs hr)%Z -> length (h_zen hr) = length (h_azi hr) -> length (h_left hr) = length (h_azi hr) -> length (h_right hr) = length (h_azi hr) ->
  sh_matrix 0 (h_azi hr) (h_zen hr) = Ok Y -> penrose Y (pinv Y) -> cont = Avg \/ cont = Angle -> magls_bin pinv hr 0 None cont hf = Err AssertionError.
Proof. exact magls_order_zero. Qed.
Print Assumptions C83_order_zero.
Theorem C83_unknown : forall pinv hr N f_trans Y n kc hf,
  magls_setup pinv hr N f_trans Y n kc -> magls_bin pinv hr N f_trans OtherCont hf = Err ValueError.
Proof. exact magls_unknown. Qed.
Print Assumptions C83_unknown.
Theorem C83_short : forall pinv hr N f_trans Y n kc cont hf,
  magls_setup pinv hr N f_trans Y n kc -> cont_ok cont kc -> (h_taps hr < 32)%nat ->
  magls_bin pinv hr N f_trans cont hf = Err ValueError.
Proof. exact magls_short. Qed.
Print Assumptions C83_short.
Theorem C83_no_rate : forall pinv hr N f cont hf,
  h_fs hr = 0%Z -> magls_bin pinv hr N f cont hf = Err ZeroDivisionError.
Proof. exact bin_fs0. Qed.
Print Assumptions C83_no_rate.
Theorem C83_odd_taps : forall pinv hr N f_trans Y n kc cont hf,
  magls_setup pinv hr N f_trans Y n kc -> cont_ok cont kc -> (1024 < h_taps hr)%nat -> Nat.odd (h_taps hr) = true ->
  exists l r, magls_bin pinv hr N f_trans cont hf = Ok (l, r) /\
    forall j, (j < (N + 1) ^ 2)%nat -> length (nth j l []) = (h_taps hr - 1)%nat /\ length (nth j r []) = (h_taps hr - 1)%nat.
Proof. exact magls_odd. Qed.
Print Assumptions C83_odd_taps.
Theorem C83_default_192kHz : exists Y, magls_setup (tr_pinv (4 * PI / 6)) (octa_hrirs 128 192000) 1 None Y 1024 3 /\
  magls_bin (tr_pinv (4 * PI / 6)) (octa_hrirs 128 192000) 1 None Avg (0, 0) = Err AssertionError.
Proof. exact ex_192k. Qed.
Print Assumptions C83_default_192kHz.
Theorem C83_length_refuted : exists hr l r, h_taps hr = 1025%nat /\ Forall (fun x => length x = 1025%nat) (h_left hr) /\
  magls_bin (tr_pinv (4 * PI / 6)) hr 1 None Avg (0, 0) = Ok (l, r) /\ length (nth 0 l []) = 1024%nat.
Proof. exact ex_1025. Qed.
Print Assumptions C83_length_refuted.
Example C83_nonvacuous : exists Y, magls_setup (tr_pinv (4 * PI / 6)) (octa_hrirs 128 48000) 1 None Y 1024 13 /\
  exists l r, magls_bin (tr_pinv (4 * PI / 6)) (octa_hrirs 128 48000) 1 None Avg (0, 0) = Ok (l, r) /\
    forall j t, (j < 4)%nat -> (t < 128)%nat ->
      nth t (nth j l []) 0 = (if Nat.eqb t 8 && Nat.eqb j 0 then sqrt (4 * PI) else 0) /\
      nth t (nth j r []) 0 = (if Nat.eqb t 20 && Nat.eqb j 0 then sqrt (4 * PI) / 2 else 0).
Proof. exact ex_pulses. Qed.

(** ** C84 *)

Theorem C84_magnitude : forall pinv hr N f_trans Y n kc cont hf,
  magls_setup pinv hr N f_trans Y n kc -> cont_ok cont kc -> (32 <= h_taps hr)%nat -> right_invertible Y ->
  exists l r, magls_bin pinv hr N f_trans cont hf = Ok (l, r) /\ magls_exact Y (h_left hr) n (h_taps hr) kc l /\ magls_exact Y (h_right hr) n (h_taps hr) kc r.
Proof. exact magls_magnitude. Qed.
Print Assumptions C84_magnitude.
Theorem C84_common_delay : forall pinv hr N f_trans Y n kc cont hf thl al thr ar,
  magls_setup pinv hr N f_trans Y n kc -> cont_ok cont kc -> (1 <= kc)%nat -> (32 <= h_taps hr)%nat -> Nat.even n = true ->
  common_delay Y (h_left hr) n thl al -> continues cont thl (2 * PI * fst hf / INR n) ->
  common_delay Y (h_right hr) n thr ar -> continues cont thr (2 * PI * snd hf / INR n) ->
  exists l r, magls_bin pinv hr N f_trans cont hf = Ok (l, r) /\ plain_fit Y (h_left hr) (h_taps hr) l /\ plain_fit Y (h_right hr) (h_taps hr) r.
Proof. exact magls_common_delay. Qed.
Print Assumptions C84_common_delay.
Theorem C84_pulses : forall pinv hr N f_trans Y n kc cont hf dl wl bl dr wr br,
  magls_setup pinv hr N f_trans Y n kc -> cont_ok cont kc -> (32 <= h_taps hr)%nat -> Nat.even n = true ->
  (cont = Avg \/ cont = Angle) /\ hf = (0, 0) \/ cont = Delay /\ hf = (INR dl, INR dr) /\ (1 <= kc)%nat ->
  (2 * dl < n)%nat -> (2 * dr < n)%nat -> pulses (h_left hr) (nr Y) dl wl -> pulses (h_right hr) (nr Y) dr wr ->
  (forall g, (g < nr Y)%nat -> 0 <= wl g /\ 0 <= wr g) -> best_fit Y wl bl -> best_fit Y wr br -> 0 < bl 0%nat -> 0 < br 0%nat ->
  (forall g, (g < nr Y)%nat -> 0 < rsum (nc Y) (fun j => ent Y g j * bl j) /\ 0 < rsum (nc Y) (fun j => ent Y g j * br j)) ->
  exists l r, magls_bin pinv hr N f_trans cont hf = Ok (l, r) /\ pulse_rows Y (h_taps hr) dl bl l /\ pulse_rows Y (h_taps hr) dr br r.
Proof. exact magls_pulses. Qed.
Print Assumptions C84_pulses.
Example C84_nonvacuous : exists Y, magls_setup (tr_pinv (4 * PI / 6)) (octa_hrirs 128 48000) 1 None Y 1024 13 /\
  exists l r, magls_bin (tr_pinv (4 * PI / 6)) (octa_hrirs 128 48000) 1 None Avg (0, 0) = Ok (l, r) /\
    forall j t, (j < 4)%nat -> (t < 128)%nat ->
      nth t (nth j l []) 0 = (if Nat.eqb t 8 && Nat.eqb j 0 then sqrt (4 * PI) else 0) /\
      nth t (nth j r []) 0 = (if Nat.eqb t 20 && Nat.eqb j 0 then sqrt (4 * PI) / 2 else 0).
Proof. exact ex_pulses. Qed.
Example C84_magnitude_nonvacuous : exists Y, magls_setup row_pinv one_hrirs 1 None Y 1024 13 /\ right_invertible Y /\ cont_ok Angle 13 /\ (32 <= h_taps one_hrirs)%nat.
Proof. exact ex_magnitude. Qed.
