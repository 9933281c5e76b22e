(** Properties of forward-backward filters and band-pass filters (C102 - C104). *)
From Verif Require Import Base M_utils M_sig M_process M_sph0 M_sph M_decoder M_decoder2 M_decoder3 M_parsa2 M_parsa3 M_process3 S_process3 S_parsa2 M_zp S_zp M_process4 S_process S_process4 S_butter S_chain X_parsa2 X_ff X_but P_chain1 P_chain2 P_chain3 X_chain.
Open Scope R_scope.


(** ** C102 *)

Theorem C102_filtfilt : forall b a x w, filtfilt b a x = Ok w <->
  (nth 0 a 0 <> 0 /\ b <> [] /\ lsum a <> 0 /\ (2 <= Nat.max (length a) (length b))%nat /\ (3 * Nat.max (length a) (length b) < length x)%nat) /\
  forward_backward b a (3 * Nat.max (length a) (length b)) x w.
Proof. exact f_filtfilt. Qed.
Print Assumptions C102_filtfilt.
Theorem C102_defined : forall b a x, nth 0 a 0 <> 0 -> b <> [] -> lsum a <> 0 -> (2 <= Nat.max (length a) (length b))%nat -> (3 * Nat.max (length a) (length b) < length x)%nat -> exists w, filtfilt b a x = Ok w.
Proof. exact f_exists. Qed.
Print Assumptions C102_defined.
Theorem C102_unique : forall b a e x w w', nth 0 a 0 <> 0 -> forward_backward b a e x w -> forward_backward b a e x w' -> w' = w.
Proof. exact f_only. Qed.
Print Assumptions C102_unique.
Theorem C102_linear : forall b a c d x x' w w', length x' = length x -> filtfilt b a x = Ok w -> filtfilt b a x' = Ok w' ->
  filtfilt b a (map (fun p => c * fst p + d * snd p) (combine x x')) = Ok (map (fun p => c * fst p + d * snd p) (combine w w')).
Proof. exact f_linear. Qed.
Print Assumptions C102_linear.
Theorem C102_constant : forall b a c n, nth 0 a 0 <> 0 -> b <> [] -> lsum a <> 0 -> (2 <= Nat.max (length a) (length b))%nat -> (3 * Nat.max (length a) (length b) < n)%nat ->
  filtfilt b a (repeat c n) = Ok (repeat ((lsum b / lsum a) ^ 2 * c) n).
Proof. exact f_constant. Qed.
Print Assumptions C102_constant.
Theorem C102_offset : forall b a c x w, lsum b = 0 -> filtfilt b a x = Ok w -> filtfilt b a (map (fun v => v + c) x) = Ok w.
Proof. exact f_offset. Qed.
Print Assumptions C102_offset.
Theorem C102_sosfiltfilt : forall l x w, sosfiltfilt l x = Ok w <->
  ((forall s, In s l -> t0 s = 1 /\ 1 + t1 s + t2 s <> 0) /\ (3 * (2 * length l + 1 - Nat.min (count_zero s2 l) (count_zero t2 l)) < length x)%nat) /\
  forward_backward (fold_right (fun s acc => times [s0 s; s1 s; s2 s] acc) [1] l) (fold_right (fun s acc => times [t0 s; t1 s; t2 s] acc) [1] l)
    (3 * (2 * length l + 1 - Nat.min (count_zero s2 l) (count_zero t2 l))) x w.
Proof. exact f_sos. Qed.
Print Assumptions C102_sosfiltfilt.
Theorem C102_sections : forall l x w, l <> [] -> (forall s, In s l -> t0 s = 1) -> Nat.min (count_zero s2 l) (count_zero t2 l) = 0%nat ->
  (sosfiltfilt l x = Ok w <-> filtfilt (fold_right (fun s acc => times [s0 s; s1 s; s2 s] acc) [1] l) (fold_right (fun s acc => times [t0 s; t1 s; t2 s] acc) [1] l) x = Ok w).
Proof. exact f_sections. Qed.
Print Assumptions C102_sections.
Theorem C102_zero_phase_fir : forall b a0 x w n, filtfilt b [a0] x = Ok w -> (n < length x)%nat ->
  nth n w 0 = rsum (length b) (fun i => rsum (length b) (fun j => nth i b 0 * nth j b 0 * turned x (Z.of_nat n + Z.of_nat i - Z.of_nat j)%Z)) / a0 ^ 2.
Proof. exact f_fir. Qed.
Print Assumptions C102_zero_phase_fir.
Theorem C102_zero_phase : forall b a l rho, nth 0 a 0 <> 0 -> all_roots a l -> 0 < rho < 1 -> inside rho l ->
  exists K, 0 <= K /\ forall A t f x w, (forall n, (n < length x)%nat -> nth n x 0 = A * cos (t * INR n + f)) -> filtfilt b a x = Ok w ->
    forall n, (n < length x)%nat -> Rabs (nth n w 0 - power b t / power a t * nth n x 0) <= K * Rabs A * (rho ^ n + rho ^ (length x - 1 - n)).
Proof. exact f_wave. Qed.
Print Assumptions C102_zero_phase.
Theorem C102_zero_phase_sections : forall l rs rho, (forall s, In s l -> t0 s = 1) -> all_roots (fold_right (fun s acc => times [t0 s; t1 s; t2 s] acc) [1] l) rs -> 0 < rho < 1 -> inside rho rs ->
  exists K, 0 <= K /\ forall A t f x w, (forall n, (n < length x)%nat -> nth n x 0 = A * cos (t * INR n + f)) -> sosfiltfilt l x = Ok w ->
    forall n, (n < length x)%nat ->
      Rabs (nth n w 0 - power (fold_right (fun s acc => times [s0 s; s1 s; s2 s] acc) [1] l) t / power (fold_right (fun s acc => times [t0 s; t1 s; t2 s] acc) [1] l) t * nth n x 0) <= K * Rabs A * (rho ^ n + rho ^ (length x - 1 - n)).
Proof. exact f_sos_wave. Qed.
Print Assumptions C102_zero_phase_sections.
Example C102_nonvacuous : exists w, filtfilt [1; 1] [1; -1/2] (map (fun n => 5 * cos (1/10 * INR n + 1)) (seq 0 40)) = Ok w.
Proof. exact ex_filtfilt. Qed.
Example C102_roots_nonvacuous : all_roots [1; -1/2] [(1/2, 0)] /\ inside (3/4) [(1/2, 0)].
Proof. exact ex_roots1. Qed.
Example C102_offset_nonvacuous : lsum [1; 0; -1] = 0 /\ exists w, filtfilt [1; 0; -1] [2; 1] (map INR (seq 0 20)) = Ok w.
Proof. exact ex_offset. Qed.
Example C102_fir_nonvacuous : exists w, filtfilt [1/2; 1/2] [1] (map INR (seq 0 10)) = Ok w.
Proof. exact ex_fir. Qed.
Example C102_sections_nonvacuous : let l := [Sos 1 2 1 1 0 (1/4); Sos 1 0 (-1) 1 (-1/2) (1/8)] in
  (forall s, In s l -> t0 s = 1) /\ Nat.min (count_zero s2 l) (count_zero t2 l) = 0%nat /\ exists w, sosfiltfilt l (map INR (seq 0 20)) = Ok w.
Proof. exact ex_sections. Qed.

(** ** C103 *)

Theorem C103_defined : forall w1 w2,
  ((0 < w1 /\ w1 < w2 /\ w2 < 1) -> exists b a l, butter_ba w1 w2 = Ok (b, a) /\ butter_sos w1 w2 = Ok l) /\
  (~ (0 < w1 /\ w1 < w2 /\ w2 < 1) -> butter_ba w1 w2 = Err ValueError /\ butter_sos w1 w2 = Err ValueError).
Proof. exact f_defined. Qed.
Print Assumptions C103_defined.
Theorem C103_coefficients : forall w1 w2 b a, butter_ba w1 w2 = Ok (b, a) -> exists k, 0 < k /\ b = [k; 0; - 2 * k; 0; k] /\ length a = 5%nat /\ nth 0 a 0 = 1.
Proof. exact f_coeffs. Qed.
Print Assumptions C103_coefficients.
Theorem C103_gain : forall w1 w2 b a t, butter_ba w1 w2 = Ok (b, a) -> 0 < power a t /\ power b t / power a t = band_gain w1 w2 t.
Proof. exact f_gain. Qed.
Print Assumptions C103_gain.
Theorem C103_butterworth : forall w1 w2 t, 0 < w1 -> w1 < w2 -> w2 < 1 -> 0 < t < PI ->
  band_gain w1 w2 t = 1 / (1 + ((tan (t / 2) ^ 2 - tan (PI * w1 / 2) * tan (PI * w2 / 2)) / (tan (t / 2) * (tan (PI * w2 / 2) - tan (PI * w1 / 2)))) ^ 4).
Proof. exact f_standard. Qed.
Print Assumptions C103_butterworth.
Theorem C103_band : forall w1 w2, 0 < w1 -> w1 < w2 -> w2 < 1 ->
  (forall t, 0 <= band_gain w1 w2 t <= 1) /\
  band_gain w1 w2 0 = 0 /\ band_gain w1 w2 PI = 0 /\ band_gain w1 w2 (PI * w1) = 1 / 2 /\ band_gain w1 w2 (PI * w2) = 1 / 2 /\
  (forall t, 0 <= t <= PI -> (1 / 2 <= band_gain w1 w2 t <-> PI * w1 <= t <= PI * w2)) /\
  exists tc, PI * w1 < tc < PI * w2 /\ band_gain w1 w2 tc = 1 /\
    (forall t t', 0 <= t -> t < t' -> t' <= tc -> band_gain w1 w2 t < band_gain w1 w2 t') /\
    (forall t t', tc <= t -> t < t' -> t' <= PI -> band_gain w1 w2 t' < band_gain w1 w2 t).
Proof. exact f_band. Qed.
Print Assumptions C103_band.
Theorem C103_poles : forall w1 w2 b a, butter_ba w1 w2 = Ok (b, a) -> exists rs, all_roots a rs /\ inside 1 rs.
Proof. exact f_poles. Qed.
Print Assumptions C103_poles.
Theorem C103_stable : forall w1 w2 b a, butter_ba w1 w2 = Ok (b, a) -> stable b a.
Proof. exact f_but_stable. Qed.
Print Assumptions C103_stable.
Theorem C103_sections : forall w1 w2 b a l, butter_ba w1 w2 = Ok (b, a) -> butter_sos w1 w2 = Ok l ->
  fold_right (fun s acc => times [s0 s; s1 s; s2 s] acc) [1] l = b /\ fold_right (fun s acc => times [t0 s; t1 s; t2 s] acc) [1] l = a /\
  forall x w, sosfiltfilt l x = Ok w <-> filtfilt b a x = Ok w.
Proof. exact f_but_sections. Qed.
Print Assumptions C103_sections.
Theorem C103_filters : forall w1 w2 b a l, butter_ba w1 w2 = Ok (b, a) -> butter_sos w1 w2 = Ok l ->
  (forall x, (15 < length x)%nat -> exists w, filtfilt b a x = Ok w /\ sosfiltfilt l x = Ok w) /\
  (forall x, (length x <= 15)%nat -> filtfilt b a x = Err ValueError /\ sosfiltfilt l x = Err ValueError).
Proof. exact f_but_filter. Qed.
Print Assumptions C103_filters.
Theorem C103_zero_phase : forall w1 w2 b a, butter_ba w1 w2 = Ok (b, a) ->
  exists K rho, 0 <= K /\ 0 < rho < 1 /\ forall A t f x w, (forall n, (n < length x)%nat -> nth n x 0 = A * cos (t * INR n + f)) -> filtfilt b a x = Ok w ->
    forall n, (n < length x)%nat -> Rabs (nth n w 0 - band_gain w1 w2 t * nth n x 0) <= K * Rabs A * (rho ^ n + rho ^ (length x - 1 - n)).
Proof. exact f_but_wave. Qed.
Print Assumptions C103_zero_phase.
Theorem C103_offset : forall w1 w2 b a c x w, butter_ba w1 w2 = Ok (b, a) -> filtfilt b a x = Ok w -> filtfilt b a (map (fun v => v + c) x) = Ok w.
Proof. exact f_but_offset. Qed.
Print Assumptions C103_offset.
Example C103_nonvacuous : exists b a l, butter_ba (2 * 100 / 48000) (2 * 1500 / 48000) = Ok (b, a) /\ butter_sos (2 * 100 / 48000) (2 * 1500 / 48000) = Ok l.
Proof. exact ex_butter. Qed.
Example C103_error_nonvacuous : butter_ba (2 * 1000 / 40000) (2 * 20000 / 40000) = Err ValueError.
Proof. exact ex_butter_err. Qed.

(** ** C104 *)

Theorem C104_ild : forall h f1 f2 todb n v, length (h_left h) = n -> length (h_right h) = n ->
  (ilds_from_hrirs h (f1, f2) todb = Ok v <->
   exists b a, butter_ba (2 * f1 / IZR (h_fs h)) (2 * f2 / IZR (h_fs h)) = Ok (b, a) /\ length v = n /\
     forall i, (i < n)%nat -> exists l r, filtfilt b a (nth i (h_left h) []) = Ok l /\ filtfilt b a (nth i (h_right h) []) = Ok r /\
       if todb then ild_db l r (nth i v None) else nth i v None = Some (loud l - loud r)).
Proof. exact f_ild. Qed.
Print Assumptions C104_ild.
Theorem C104_ild_defined : forall h f1 f2 todb n, length (h_left h) = n -> length (h_right h) = n ->
  0 < 2 * f1 / IZR (h_fs h) -> 2 * f1 / IZR (h_fs h) < 2 * f2 / IZR (h_fs h) -> 2 * f2 / IZR (h_fs h) < 1 ->
  (forall i, (i < n)%nat -> (15 < length (nth i (h_left h) []))%nat /\ (15 < length (nth i (h_right h) []))%nat) ->
  exists v, ilds_from_hrirs h (f1, f2) todb = Ok v.
Proof. exact f_ild_defined. Qed.
Print Assumptions C104_ild_defined.
Theorem C104_ild_band_error : forall h f1 f2 todb, ~ (0 < 2 * f1 / IZR (h_fs h) /\ 2 * f1 / IZR (h_fs h) < 2 * f2 / IZR (h_fs h) /\ 2 * f2 / IZR (h_fs h) < 1) -> ilds_from_hrirs h (f1, f2) todb = Err ValueError.
Proof. exact f_ild_band_error. Qed.
Print Assumptions C104_ild_band_error.
Theorem C104_ild_short_error : forall h f1 f2 todb x, In x (h_left h) \/ In x (h_right h) -> (length x <= 15)%nat -> ilds_from_hrirs h (f1, f2) todb = Err ValueError.
Proof. exact f_ild_short_error. Qed.
Print Assumptions C104_ild_short_error.
Theorem C104_ild_default_band_refuted : forall h todb, (h_fs h <= 40000)%Z -> ilds_from_hrirs h (1000, 20000) todb = Err ValueError.
Proof. exact f_ild_default_error. Qed.
Print Assumptions C104_ild_default_band_refuted.
Theorem C104_ild_swap : forall h h' f1 f2 todb n v, length (h_left h) = n -> length (h_right h) = n -> h_fs h' = h_fs h -> h_left h' = h_right h -> h_right h' = h_left h ->
  ilds_from_hrirs h (f1, f2) todb = Ok v -> ilds_from_hrirs h' (f1, f2) todb = Ok (map (option_map Ropp) v).
Proof. exact f_ild_swap. Qed.
Print Assumptions C104_ild_swap.
Theorem C104_ild_gain : forall h h' gl gr f1 f2 n v, length (h_left h) = n -> length (h_right h) = n -> length (h_left h') = n -> length (h_right h') = n -> h_fs h' = h_fs h ->
  (forall i, (i < n)%nat -> gl i <> 0 /\ gr i <> 0 /\ nth i (h_left h') [] = map (fun x => gl i * x) (nth i (h_left h) []) /\ nth i (h_right h') [] = map (fun x => gr i * x) (nth i (h_right h) [])) ->
  ilds_from_hrirs h (f1, f2) true = Ok v ->
  exists v', ilds_from_hrirs h' (f1, f2) true = Ok v' /\ length v' = n /\
    forall i, (i < n)%nat -> nth i v' None = option_map (fun d => d + 20 * (ln (Rabs (gl i) / Rabs (gr i)) / ln 10)) (nth i v None).
Proof. exact f_ild_gain. Qed.
Print Assumptions C104_ild_gain.
Theorem C104_ild_offset : forall h h' cl cr f1 f2 todb n v, length (h_left h) = n -> length (h_right h) = n -> length (h_left h') = n -> length (h_right h') = n -> h_fs h' = h_fs h ->
  (forall i, (i < n)%nat -> nth i (h_left h') [] = map (fun x => x + cl i) (nth i (h_left h) []) /\ nth i (h_right h') [] = map (fun x => x + cr i) (nth i (h_right h) [])) ->
  ilds_from_hrirs h (f1, f2) todb = Ok v -> ilds_from_hrirs h' (f1, f2) todb = Ok v.
Proof. exact f_ild_offset. Qed.
Print Assumptions C104_ild_offset.
Theorem C104_ild_copy : forall h c f1 f2 n v i b a l, length (h_left h) = n -> length (h_right h) = n -> (i < n)%nat -> c <> 0 -> nth i (h_right h) [] = map (fun x => c * x) (nth i (h_left h) []) ->
  butter_ba (2 * f1 / IZR (h_fs h)) (2 * f2 / IZR (h_fs h)) = Ok (b, a) -> filtfilt b a (nth i (h_left h) []) = Ok l -> loud l <> 0 ->
  ilds_from_hrirs h (f1, f2) true = Ok v -> nth i v None = Some (- (20 * (ln (Rabs c) / ln 10))).
Proof. exact f_ild_copy. Qed.
Print Assumptions C104_ild_copy.
Theorem C104_itd : forall rs h f1 f2 up n v F, F = (up * h_fs h)%Z -> length (h_left h) = n -> length (h_right h) = n ->
  (forall i x y, (i < n)%nat -> rs (h_fs h) F (nth i (h_left h) []) = Ok x -> rs (h_fs h) F (nth i (h_right h) []) = Ok y -> length x = length y) ->
  (itds_from_hrirs rs h (f1, f2) up = Ok v <->
   exists b a, butter_ba (2 * f1 / IZR F) (2 * f2 / IZR F) = Ok (b, a) /\ length v = n /\
     forall i, (i < n)%nat -> exists x y l r m, rs (h_fs h) F (nth i (h_left h) []) = Ok x /\ rs (h_fs h) F (nth i (h_right h) []) = Ok y /\
       filtfilt b a x = Ok l /\ filtfilt b a y = Ok r /\ first_peak (energy_corr l r) (length l) m /\ nth i v 0 = - IZR m / IZR F).
Proof. exact f_itd. Qed.
Print Assumptions C104_itd.
Theorem C104_itd_defined : forall rs h f1 f2 up n F, F = (up * h_fs h)%Z -> length (h_left h) = n -> length (h_right h) = n ->
  0 < f1 -> f1 < f2 -> 2 * f2 < IZR F ->
  (forall i, (i < n)%nat -> exists x y, rs (h_fs h) F (nth i (h_left h) []) = Ok x /\ rs (h_fs h) F (nth i (h_right h) []) = Ok y /\ length x = length y /\ (15 < length x)%nat) ->
  exists v, itds_from_hrirs rs h (f1, f2) up = Ok v.
Proof. exact f_itd_defined. Qed.
Print Assumptions C104_itd_defined.
Theorem C104_itd_band_error : forall rs h f1 f2 up F x y, F = (up * h_fs h)%Z -> mapM (rs (h_fs h) F) (h_left h) = Ok x -> mapM (rs (h_fs h) F) (h_right h) = Ok y ->
  ~ (0 < 2 * f1 / IZR F /\ 2 * f1 / IZR F < 2 * f2 / IZR F /\ 2 * f2 / IZR F < 1) -> itds_from_hrirs rs h (f1, f2) up = Err ValueError.
Proof. exact f_itd_band_error. Qed.
Print Assumptions C104_itd_band_error.
Theorem C104_itd_bound : forall rs h f1 f2 up n v F i x, F = (up * h_fs h)%Z -> length (h_left h) = n -> length (h_right h) = n ->
  (forall i x y, (i < n)%nat -> rs (h_fs h) F (nth i (h_left h) []) = Ok x -> rs (h_fs h) F (nth i (h_right h) []) = Ok y -> length x = length y) ->
  itds_from_hrirs rs h (f1, f2) up = Ok v -> (i < n)%nat -> rs (h_fs h) F (nth i (h_left h) []) = Ok x -> (0 < F)%Z -> Rabs (nth i v 0) <= INR (length x) / 2 / IZR F.
Proof. exact f_itd_bound. Qed.
Print Assumptions C104_itd_bound.
Theorem C104_itd_gain : forall rs h h' gl gr f1 f2 up n v F, F = (up * h_fs h)%Z -> length (h_left h) = n -> length (h_right h) = n -> length (h_left h') = n -> length (h_right h') = n -> h_fs h' = h_fs h ->
  (forall i x y, (i < n)%nat -> rs (h_fs h) F (nth i (h_left h) []) = Ok x -> rs (h_fs h) F (nth i (h_right h) []) = Ok y -> length x = length y) ->
  (forall c x y, rs (h_fs h) F x = Ok y -> rs (h_fs h) F (map (fun t => c * t) x) = Ok (map (fun t => c * t) y)) ->
  (forall i, (i < n)%nat -> gl i <> 0 /\ gr i <> 0 /\ nth i (h_left h') [] = map (fun x => gl i * x) (nth i (h_left h) []) /\ nth i (h_right h') [] = map (fun x => gr i * x) (nth i (h_right h) [])) ->
  itds_from_hrirs rs h (f1, f2) up = Ok v -> itds_from_hrirs rs h' (f1, f2) up = Ok v.
Proof. exact f_itd_gain. Qed.
Print Assumptions C104_itd_gain.
Theorem C104_itd_swap : forall rs h h' f1 f2 up n v F, F = (up * h_fs h)%Z -> length (h_left h) = n -> length (h_right h) = n -> h_fs h' = h_fs h -> h_left h' = h_right h -> h_right h' = h_left h ->
  (forall i x y, (i < n)%nat -> rs (h_fs h) F (nth i (h_left h) []) = Ok x -> rs (h_fs h) F (nth i (h_right h) []) = Ok y -> length x = length y) ->
  itds_from_hrirs rs h (f1, f2) up = Ok v ->
  exists v', itds_from_hrirs rs h' (f1, f2) up = Ok v' /\ length v' = n /\
    forall i x y b a l r m, (i < n)%nat -> rs (h_fs h) F (nth i (h_left h) []) = Ok x -> rs (h_fs h) F (nth i (h_right h) []) = Ok y ->
      butter_ba (2 * f1 / IZR F) (2 * f2 / IZR F) = Ok (b, a) -> filtfilt b a x = Ok l -> filtfilt b a y = Ok r ->
      (2 * Z.abs m < Z.of_nat (length l))%Z -> (forall k, (2 * Z.abs k <= Z.of_nat (length l))%Z -> k <> m -> energy_corr l r k < energy_corr l r m) ->
      nth i v 0 = - IZR m / IZR F /\ nth i v' 0 = - nth i v 0.
Proof. exact f_itd_swap. Qed.
Print Assumptions C104_itd_swap.
Theorem C104_itd_copy : forall rs h f1 f2 up n v F i c x b a l, F = (up * h_fs h)%Z -> length (h_left h) = n -> length (h_right h) = n ->
  (forall i x y, (i < n)%nat -> rs (h_fs h) F (nth i (h_left h) []) = Ok x -> rs (h_fs h) F (nth i (h_right h) []) = Ok y -> length x = length y) ->
  (forall c x y, rs (h_fs h) F x = Ok y -> rs (h_fs h) F (map (fun t => c * t) x) = Ok (map (fun t => c * t) y)) ->
  itds_from_hrirs rs h (f1, f2) up = Ok v -> (i < n)%nat -> c <> 0 -> nth i (h_right h) [] = map (fun t => c * t) (nth i (h_left h) []) ->
  rs (h_fs h) F (nth i (h_left h) []) = Ok x -> butter_ba (2 * f1 / IZR F) (2 * f2 / IZR F) = Ok (b, a) -> filtfilt b a x = Ok l -> (exists t, In t l /\ t <> 0) -> nth i v 0 = 0.
Proof. exact f_itd_copy. Qed.
Print Assumptions C104_itd_copy.
Theorem C104_itd_silence_refuted : forall rs h f1 f2 up n v F i x y b a l r, F = (up * h_fs h)%Z -> length (h_left h) = n -> length (h_right h) = n ->
  (forall i x y, (i < n)%nat -> rs (h_fs h) F (nth i (h_left h) []) = Ok x -> rs (h_fs h) F (nth i (h_right h) []) = Ok y -> length x = length y) ->
  itds_from_hrirs rs h (f1, f2) up = Ok v -> (i < n)%nat -> rs (h_fs h) F (nth i (h_left h) []) = Ok x -> rs (h_fs h) F (nth i (h_right h) []) = Ok y ->
  butter_ba (2 * f1 / IZR F) (2 * f2 / IZR F) = Ok (b, a) -> filtfilt b a x = Ok l -> filtfilt b a y = Ok r ->
  (forall t, In t l -> t = 0) \/ (forall t, In t r -> t = 0) -> nth i v 0 = INR (length x / 2) / IZR F.
Proof. exact f_itd_silent. Qed.
Print Assumptions C104_itd_silence_refuted.
Theorem C104_intensity : forall s f1 f2 wl so jobs de sc b a w x y z, (wl mod 2 = 1)%Z ->
  butter_ba (2 * f1 / IZR (mu_fs (base s))) (2 * f2 / IZR (mu_fs (base s))) = Ok (b, a) ->
  filtfilt b a (aW s) = Ok w -> filtfilt b a (aX s) = Ok x -> filtfilt b a (aY s) = Ok y -> filtfilt b a (aZ s) = Ok z ->
  pseudo_intensity_bp (f1, f2) s wl so jobs de sc = pseudo_intensity None (AmbiB (base s) w x y z) wl so jobs de sc.
Proof. exact f_bp. Qed.
Print Assumptions C104_intensity.
Theorem C104_intensity_defined : forall s n h so de sc f1 f2, 0 < f1 -> f1 < f2 -> 2 * f2 < IZR (mu_fs (base s)) -> multi_len (base s) = Ok n -> (15 < n)%nat -> (1 <= h)%nat -> (so <= 0 \/ exists k, so = odd k)%Z ->
  long (bands s) n -> exists out, pseudo_intensity_bp (f1, f2) s (odd h) so 1 de sc = Ok out /\ length out = n.
Proof. exact f_bp_defined. Qed.
Print Assumptions C104_intensity_defined.
Theorem C104_intensity_errors : forall s f1 f2 wl so jobs de sc,
  ((wl mod 2 = 0)%Z -> pseudo_intensity_bp (f1, f2) s wl so jobs de sc = Err AssertionError) /\
  ((wl mod 2 = 1)%Z -> mu_fs (base s) = 0%Z -> pseudo_intensity_bp (f1, f2) s wl so jobs de sc = Err ZeroDivisionError) /\
  ((wl mod 2 = 1)%Z -> mu_fs (base s) <> 0%Z -> ~ (0 < 2 * f1 / IZR (mu_fs (base s)) /\ 2 * f1 / IZR (mu_fs (base s)) < 2 * f2 / IZR (mu_fs (base s)) /\ 2 * f2 / IZR (mu_fs (base s)) < 1) ->
     pseudo_intensity_bp (f1, f2) s wl so jobs de sc = Err ValueError) /\
  ((wl mod 2 = 1)%Z -> mu_fs (base s) <> 0%Z -> (exists c, In c [aW s; aX s; aY s; aZ s] /\ (length c <= 15)%nat) -> pseudo_intensity_bp (f1, f2) s wl so jobs de sc = Err ValueError).
Proof. exact f_bp_errors. Qed.
Print Assumptions C104_intensity_errors.
Theorem C104_intensity_direction : forall s n h so sig sig' c azi zen de sc out j f1 f2 b a, multi_len (base s) = Ok n -> (n <= length sig)%nat -> (1 <= h)%nat ->
  (so <= 0 \/ exists k, so = odd k)%Z -> plane_wave s sig c (sph2cart azi zen 1) -> - PI < azi <= PI -> 0 < zen < PI -> (j < n)%nat ->
  butter_ba (2 * f1 / IZR (mu_fs (base s))) (2 * f2 / IZR (mu_fs (base s))) = Ok (b, a) -> filtfilt b a sig = Ok sig' ->
  10 / 10 ^ 15 <= c * smoothing so n (masked h n sig' sig') j ->
  pseudo_intensity_bp (f1, f2) s (odd h) so 1 de sc = Ok out ->
  nth j out (0, None, 0) = (azi, Some zen, c * smoothing so n (masked h n sig' sig') j).
Proof. exact f_bp_direction. Qed.
Print Assumptions C104_intensity_direction.
Theorem C104_intensity_offset : forall s s' f1 f2 wl so jobs de sc b a cw cx cy cz w x y z, (wl mod 2 = 1)%Z -> base s' = base s ->
  aW s' = map (fun v => v + cw) (aW s) -> aX s' = map (fun v => v + cx) (aX s) -> aY s' = map (fun v => v + cy) (aY s) -> aZ s' = map (fun v => v + cz) (aZ s) ->
  butter_ba (2 * f1 / IZR (mu_fs (base s))) (2 * f2 / IZR (mu_fs (base s))) = Ok (b, a) ->
  filtfilt b a (aW s) = Ok w -> filtfilt b a (aX s) = Ok x -> filtfilt b a (aY s) = Ok y -> filtfilt b a (aZ s) = Ok z ->
  pseudo_intensity_bp (f1, f2) s' wl so jobs de sc = pseudo_intensity_bp (f1, f2) s wl so jobs de sc.
Proof. exact f_bp_offset. Qed.
Print Assumptions C104_intensity_offset.
Example C104_ild_nonvacuous : exists h b a l v, length (h_left h) = 1%nat /\ length (h_right h) = 1%nat /\ h_fs h = 48000%Z /\
  nth 0 (h_right h) [] = map (fun x => / 2 * x) (nth 0 (h_left h) []) /\ (15 < length (nth 0 (h_left h) []))%nat /\
  butter_ba (2 * 1000 / 48000) (2 * 20000 / 48000) = Ok (b, a) /\ filtfilt b a (nth 0 (h_left h) []) = Ok l /\ loud l <> 0 /\
  ilds_from_hrirs h (1000, 20000) true = Ok v /\ nth 0 v None = Some (20 * (ln 2 / ln 10)).
Proof. exact ex_ild. Qed.
Example C104_itd_nonvacuous : exists rs h b a l v, length (h_left h) = 1%nat /\ length (h_right h) = 1%nat /\
  (forall x y, rs 12000%Z 48000%Z (nth 0 (h_left h) []) = Ok x -> rs 12000%Z 48000%Z (nth 0 (h_right h) []) = Ok y -> length x = length y) /\
  (forall c x y, rs 12000%Z 48000%Z x = Ok y -> rs 12000%Z 48000%Z (map (fun t => c * t) x) = Ok (map (fun t => c * t) y)) /\
  h_fs h = 12000%Z /\ butter_ba (2 * 1000 / 48000) (2 * 20000 / 48000) = Ok (b, a) /\ filtfilt b a (nth 0 (h_left h) []) = Ok l /\ (exists t, In t l /\ t <> 0) /\
  itds_from_hrirs rs h (1000, 20000) 4 = Ok v /\ nth 0 v 1 = 0.
Proof. exact ex_itd. Qed.
Example C104_intensity_nonvacuous : exists s n sig sig' b a out, multi_len (base s) = Ok (2 * n + 1)%nat /\ mu_fs (base s) = 48000%Z /\ plane_wave s sig 1 (sph2cart 1 (PI / 2) 1) /\ long (bands s) (2 * n + 1) /\ visited (2 * n + 1) 1 n /\
  butter_ba (2 * 1000 / 48000) (2 * 20000 / 48000) = Ok (b, a) /\ filtfilt b a sig = Ok sig' /\
  pseudo_intensity_bp (1000, 20000) s 3 0 1 [] [] = Ok out /\ exists r, nth n out (0, None, 0) = (1, Some (PI / 2), r) /\ / 4 <= r.
Proof. exact ex_bp. Qed.
