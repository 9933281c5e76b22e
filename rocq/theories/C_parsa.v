(** Properties of parsa.py, part 1: pattern beamformers, source counting, the
    split of a covariance, MUSIC, MVDR, LCMV and sector beamformers (C12, C36-C39,
    C43, C75). *)
From Coq Require Import Lra Lia.
From Verif Require Import Base M_utils M_sig M_sph0 M_sph M_parsa S_linalg S_sph S_parsa P_linalg P_parsa1 P_parsa2 P_parsa3 P_parsa4 P_parsa5 X_sph X_parsa.
Open Scope R_scope.


(** ** C12 *)

Theorem C12_unit_gain : forall p N azi zen g (s : list R),
  p = PHyper \/ p = PCardioid \/ p = PMaxRe -> length zen = length azi -> (g < length azi)%nat ->
  exists W F Out, sh_beamformer_from_pattern p N azi zen = Ok (Some W) /\ nr W = length azi /\ nc W = ((N + 1) ^ 2)%nat /\
    src_to_sh (row_mat s) [nth g azi 0] [nth g zen 0] N = Ok F /\ sh_beamform W F = Ok Out /\ nr Out = length azi /\ nc Out = length s /\
    forall t, (t < length s)%nat -> ent Out g t = nth t s 0.
Proof. exact f_unit_gain. Qed.
Print Assumptions C12_unit_gain.
Theorem C12_unit_gain_weights : forall c N azi zen g (s : list R),
  length c = (N + 1)%nat -> unit_response c -> length zen = length azi -> (g < length azi)%nat ->
  exists W F Out, sh_beamformer_from_pattern (PWeights c) N azi zen = Ok (Some W) /\
    src_to_sh (row_mat s) [nth g azi 0] [nth g zen 0] N = Ok F /\ sh_beamform W F = Ok Out /\ nc Out = length s /\
    forall t, (t < length s)%nat -> ent Out g t = nth t s 0.
Proof. exact f_unit_gain_weights. Qed.
Print Assumptions C12_unit_gain_weights.
Theorem C12_prepared_weights : forall N,
  (forall k n_c, n_c <> 0 -> exists c, butterworth_modal_weights N k n_c true = Ok (Some c) /\ length c = (N + 1)%nat /\ unit_response c) /\
  (forall w c, length w = (N + 1)%nat -> unity_gain w = Some c -> length c = (N + 1)%nat /\ unit_response c).
Proof. exact f_prepared_weights. Qed.
Print Assumptions C12_prepared_weights.
Theorem C12_pattern : forall c N azi zen az ze (s : list R),
  length c = (N + 1)%nat -> length zen = length azi -> zeniths zen -> 0 <= ze <= PI ->
  exists W F Out, sh_beamformer_from_pattern (PWeights c) N azi zen = Ok (Some W) /\ src_to_sh (row_mat s) [az] [ze] N = Ok F /\ sh_beamform W F = Ok Out /\
    nr Out = length azi /\ nc Out = length s /\
    forall g t, (g < length azi)%nat -> (t < length s)%nat ->
      ent Out g t = rsum (N + 1) (fun n => nth n c 0 * ((2 * INR n + 1) / (4 * PI) *
          eval_legendre n (dot3 (sph2cart (nth g azi 0) (nth g zen 0) 1) (sph2cart az ze 1)))) * nth t s 0.
Proof. exact f_pattern. Qed.
Print Assumptions C12_pattern.
Theorem C12_errors : forall N azi zen c,
  sh_beamformer_from_pattern PUnknown N azi zen = Err ValueError /\
  (length c <> (N + 1)%nat -> sh_beamformer_from_pattern (PWeights c) N azi zen = Err AssertionError).
Proof. exact f_pattern_errors. Qed.
Print Assumptions C12_errors.
Example C12_nonvacuous : length [4 * PI / 4; 4 * PI / 4] = (1 + 1)%nat /\ unit_response [4 * PI / 4; 4 * PI / 4] /\ length [1; 2] = length [0; 1] /\ zeniths [1; 2].
Proof. exact ex_unit. Qed.

(** ** C36 *)

Theorem C36_sum : forall eigh cov k w v,
  eigh cov = (w, v) -> is_eigh cov w v -> (- Z.of_nat (nr cov) <= k < Z.of_nat (nr cov))%Z ->
  exists P Q, separate_cov eigh cov (Some k) = Ok (P, Q) /\ splits cov P Q.
Proof. exact separate_sum. Qed.
Print Assumptions C36_sum.
Theorem C36_rejects : forall eigh cov k w v,
  eigh cov = (w, v) -> is_eigh cov w v -> ~ (- Z.of_nat (nr cov) <= k < Z.of_nat (nr cov))%Z ->
  separate_cov eigh cov (Some k) = Err IndexError.
Proof. exact separate_rejects. Qed.
Print Assumptions C36_rejects.
Theorem C36_default : forall eigh cov w v,
  eigh cov = (w, v) -> is_eigh cov w v -> (0 < nr cov)%nat ->
  (exists n P Q, estimate_num_sources (fun _ => []) cov None (Some w) = Ok n /\ (n < nr cov)%nat /\
     separate_cov eigh cov None = Ok (P, Q) /\ separate_cov eigh cov (Some (Z.of_nat n)) = Ok (P, Q) /\ splits cov P Q) \/
  (exists e, estimate_num_sources (fun _ => []) cov None (Some w) = Err e /\ separate_cov eigh cov None = Err e).
Proof. exact f_split_default. Qed.
Print Assumptions C36_default.
Theorem C36_signal_and_noise : forall eigh cov k w v P Q,
  eigh cov = (w, v) -> is_eigh cov w v -> (1 <= k < nr cov)%nat ->
  separate_cov eigh cov (Some (Z.of_nat k)) = Ok (P, Q) ->
  is_symmetric P /\ pos_semidef P /\ rank_le k P /\
  is_eigh Q (firstn (nr cov - k) w ++ repeat (nth (nr cov - k - 1) w 0) k) v.
Proof. exact separate_signal. Qed.
Print Assumptions C36_signal_and_noise.
Theorem C36_eigenvectors : forall A w V k,
  is_eigh A w V -> (k < nr A)%nat -> forall i, (i < nr A)%nat -> rsum (nr A) (fun j => ent A i j * ent V j k) = nth k w 0 * ent V i k.
Proof. exact f_noise_eigenvectors. Qed.
Print Assumptions C36_eigenvectors.
Theorem C36_zero_cut : forall eigh cov w v P Q,
  eigh cov = (w, v) -> is_eigh cov w v -> (0 < nr cov)%nat ->
  separate_cov eigh cov (Some 0%Z) = Ok (P, Q) ->
  neg_semidef P /\ is_symmetric P /\ (forall i j, (i < nr cov)%nat -> (j < nr cov)%nat -> ent Q i j = nth (nr cov - 1) w 0 * delta i j) /\
  forall i j, (i < nr cov)%nat -> (j < nr cov)%nat -> ent P i j = ent cov i j - nth (nr cov - 1) w 0 * delta i j.
Proof. exact separate_zero. Qed.
Print Assumptions C36_zero_cut.
Theorem C36_zero_cut_refuted : exists eigh cov w v P Q, eigh cov = (w, v) /\ is_eigh cov w v /\ pos_semidef cov /\
  separate_cov eigh cov None = Ok (P, Q) /\ separate_cov eigh cov (Some 0%Z) = Ok (P, Q) /\ ent P 0 0 = -1 /\ ent Q 0 0 = 1.
Proof. exact f_zero_cut_refuted. Qed.
Print Assumptions C36_zero_cut_refuted.
Example C36_nonvacuous : is_eigh (diag4 1 2 5 9) [1; 2; 5; 9] (meye 4) /\ (1 <= 2 < nr (diag4 1 2 5 9))%nat.
Proof. exact ex_split. Qed.

(** ** C37 *)

Theorem C37_range : forall ev cov a w n,
  estimate_num_sources ev cov a w = Ok n -> (n <= length (match w with Some w => w | None => ev cov end) - 1)%nat /\ (0 < length (match w with Some w => w | None => ev cov end))%nat.
Proof. exact f_count_range. Qed.
Print Assumptions C37_range.
Theorem C37_from_covariance : forall ev cov a,
  estimate_num_sources ev cov a None = estimate_num_sources ev cov a (Some (ev cov)).
Proof. exact f_count_default. Qed.
Print Assumptions C37_from_covariance.
Theorem C37_low_variance : forall ev cov w a0 a v,
  (0 < length w)%nat -> threshold w a0 a -> is_variance w v -> v < a -> estimate_num_sources ev cov a0 (Some w) = Ok O.
Proof. exact f_count_low. Qed.
Print Assumptions C37_low_variance.
Theorem C37_first_jump : forall ev cov w a0 a v c,
  threshold w a0 a -> is_variance w v -> a <= v -> (S c < length w)%nat ->
  jump w a c -> (forall m, (m < c)%nat -> ~ jump w a m) -> estimate_num_sources ev cov a0 (Some w) = Ok (length w - 1 - c)%nat.
Proof. exact f_count_jump. Qed.
Print Assumptions C37_first_jump.
Theorem C37_no_jump : forall ev cov w a0 a v,
  (2 <= length w)%nat -> threshold w a0 a -> is_variance w v -> a <= v -> (forall c, (S c < length w)%nat -> ~ jump w a c) ->
  estimate_num_sources ev cov a0 (Some w) = Ok (length w - 1)%nat.
Proof. exact f_count_no_jump. Qed.
Print Assumptions C37_no_jump.
Theorem C37_errors : forall ev cov a0,
  estimate_num_sources ev cov a0 (Some []) = Err (match a0 with None => ZeroDivisionError | Some _ => ValueError end) /\
  forall x a, a <= 0 -> estimate_num_sources ev cov (Some a) (Some [x]) = Err ValueError.
Proof. exact f_count_errors. Qed.
Print Assumptions C37_errors.
Theorem C37_scale_refuted : exists w s ev cov, 0 < s /\ ascending w /\ estimate_num_sources ev cov None (Some w) = Ok 0%nat /\
  estimate_num_sources ev cov None (Some (map (fun x => s * x) w)) = Ok 1%nat.
Proof. exact f_scale_refuted. Qed.
Print Assumptions C37_scale_refuted.
Example C37_nonvacuous : (2 <= length [10; 13])%nat /\ threshold [10; 13] None 2 /\ is_variance [10; 13] (9 / 4) /\ 2 <= 9 / 4 /\ (forall c, (S c < length [10; 13])%nat -> ~ jump [10; 13] 2 c).
Proof. exact ex_no_jump. Qed.
Example C37_nonvacuous_jump : threshold [1; 1; 9] None (1 + 2 / 3) /\ is_variance [1; 1; 9] (128 / 9) /\ 1 + 2 / 3 <= 128 / 9 /\ jump [1; 1; 9] (1 + 2 / 3) 1 /\ (forall m, (m < 1)%nat -> ~ jump [1; 1; 9] (1 + 2 / 3) m).
Proof. exact ex_jump. Qed.

(** ** C38 *)

Theorem C38_distortionless : forall inv cov azi zen W,
  inv_contract inv -> length zen = length azi -> sh_mvdr inv cov azi zen = Ok (Some W) ->
  exists N, nr cov = ((N + 1) ^ 2)%nat /\ nr W = length azi /\ nc W = nr cov /\
    forall g, (g < length azi)%nat -> field_value sh_real N (mrow W g) (nth g azi 0) (nth g zen 0) = 1.
Proof. exact mvdr_distortionless. Qed.
Print Assumptions C38_distortionless.
Theorem C38_optimal : forall inv cov azi zen W,
  inv_contract inv -> length zen = length azi -> is_symmetric cov -> pos_def cov ->
  sh_mvdr inv cov azi zen = Ok (Some W) -> forall N g x, nr cov = ((N + 1) ^ 2)%nat -> (g < length azi)%nat -> length x = nr cov ->
  field_value sh_real N x (nth g azi 0) (nth g zen 0) = 1 ->
  power cov (mrow W g) <= power cov x /\ (power cov x = power cov (mrow W g) -> x = mrow W g).
Proof. exact mvdr_optimal. Qed.
Print Assumptions C38_optimal.
Theorem C38_exists : forall inv cov azi zen N,
  inv_contract inv -> length zen = length azi -> is_symmetric cov -> pos_def cov ->
  nr cov = ((N + 1) ^ 2)%nat -> exists W, sh_mvdr inv cov azi zen = Ok (Some W).
Proof. exact mvdr_exists. Qed.
Print Assumptions C38_exists.
Theorem C38_singular : forall inv cov azi zen,
  inv_contract inv -> length zen = length azi -> nr cov = nc cov -> (forall X, ~ is_inverse cov X) ->
  sh_mvdr inv cov azi zen = Err LinAlgError.
Proof. exact mvdr_singular. Qed.
Print Assumptions C38_singular.
Example C38_nonvacuous : (exists inv, inv_contract inv) /\ is_symmetric (meye 4) /\ pos_def (meye 4) /\ nr (meye 4) = ((1 + 1) ^ 2)%nat.
Proof. exact ex_mvdr. Qed.

(** ** C39 *)

Theorem C39_constraints : forall inv cov azi zen c w,
  inv_contract inv -> sh_lcmv inv cov azi zen c = Ok w ->
  exists N, nr cov = ((N + 1) ^ 2)%nat /\ length w = nr cov /\ length zen = length azi /\ length c = length azi /\
    forall g, (g < length azi)%nat -> field_value sh_real N w (nth g azi 0) (nth g zen 0) = nth g c 0.
Proof. exact lcmv_constraints. Qed.
Print Assumptions C39_constraints.
Theorem C39_optimal : forall inv cov azi zen c w,
  inv_contract inv -> is_symmetric cov -> pos_def cov -> sh_lcmv inv cov azi zen c = Ok w ->
  forall N x, nr cov = ((N + 1) ^ 2)%nat -> length x = nr cov ->
  (forall g, (g < length azi)%nat -> field_value sh_real N x (nth g azi 0) (nth g zen 0) = nth g c 0) ->
  power cov w <= power cov x /\ (power cov x = power cov w -> x = w).
Proof. exact lcmv_optimal. Qed.
Print Assumptions C39_optimal.
Theorem C39_exists : forall inv cov azi zen c N Y,
  inv_contract inv -> is_symmetric cov -> pos_def cov -> nr cov = ((N + 1) ^ 2)%nat ->
  length zen = length azi -> length c = length azi -> sh_matrix N azi zen = Ok Y -> independent (length azi) (nr cov) (ent Y) ->
  exists w, sh_lcmv inv cov azi zen c = Ok w.
Proof. exact lcmv_exists. Qed.
Print Assumptions C39_exists.
Theorem C39_no_repeated_direction : forall inv cov azi zen c w g h,
  inv_contract inv -> sh_lcmv inv cov azi zen c = Ok w -> (g < length azi)%nat -> (h < length azi)%nat -> g <> h ->
  ~ (nth g azi 0 = nth h azi 0 /\ nth g zen 0 = nth h zen 0).
Proof. exact lcmv_repeated. Qed.
Print Assumptions C39_no_repeated_direction.
Example C39_nonvacuous : exists Y, sh_matrix 1 [0; 0] [PI / 2; 0] = Ok Y /\ independent (length [0; 0]) (nr (meye 4)) (ent Y).
Proof. exact ex_lcmv. Qed.

(** ** C43 *)

Theorem C43_bounds : forall eigh cov num azi zen P w v,
  eigh cov = (w, v) -> is_eigh cov w v -> (exists N, nr cov = ((N + 1) ^ 2)%nat) -> length zen = length azi ->
  sh_music eigh cov num azi zen = Ok P -> length P = length azi /\ forall x, In x P -> 0 < x <= 100000000000.
Proof. exact music_bounds. Qed.
Print Assumptions C43_bounds.
Theorem C43_peak : forall eigh cov num azi zen N P w v g,
  eigh cov = (w, v) -> is_eigh cov w v -> nr cov = ((N + 1) ^ 2)%nat -> length zen = length azi ->
  sh_music eigh cov (Z.of_nat num) azi zen = Ok P -> (1 <= num)%nat -> (g < length azi)%nat ->
  (nth g P 0 = 100000000000 <-> forall k, (k < nr cov - num)%nat ->
     field_value sh_real N (map (fun i => ent v i k) (seq 0 (nr cov))) (nth g azi 0) (nth g zen 0) = 0).
Proof. exact music_peak. Qed.
Print Assumptions C43_peak.
Theorem C43_signal_space : forall eigh cov num azi zen N P w v g (c : nat -> R) Y,
  eigh cov = (w, v) -> is_eigh cov w v -> nr cov = ((N + 1) ^ 2)%nat -> length zen = length azi ->
  sh_music eigh cov (Z.of_nat num) azi zen = Ok P -> (1 <= num <= nr cov)%nat -> (g < length azi)%nat -> sh_matrix N azi zen = Ok Y ->
  (forall j, (j < nr cov)%nat -> ent Y g j = rsum num (fun l => c l * ent v j (nr cov - num + l)%nat)) -> nth g P 0 = 100000000000.
Proof. exact f_span_peak. Qed.
Print Assumptions C43_signal_space.
Theorem C43_finds_sources : forall eigh cov azi zen N P w v (sa sz p : list R) sg Ys,
  eigh cov = (w, v) -> is_eigh cov w v -> nr cov = ((N + 1) ^ 2)%nat ->
  length zen = length azi -> length sz = length sa -> length p = length sa -> (forall x, In x p -> 0 < x) -> (1 <= length sa)%nat ->
  sh_matrix N sa sz = Ok Ys ->
  (forall i j, (i < nr cov)%nat -> (j < nr cov)%nat -> ent cov i j = sg * delta i j + rsum (length sa) (fun s => nth s p 0 * (ent Ys s i * ent Ys s j))) ->
  sh_music eigh cov (Z.of_nat (length sa)) azi zen = Ok P ->
  forall s g, (s < length sa)%nat -> (g < length azi)%nat -> nth g azi 0 = nth s sa 0 -> nth g zen 0 = nth s sz 0 -> nth g P 0 = 100000000000.
Proof. exact music_sources. Qed.
Print Assumptions C43_finds_sources.
Theorem C43_no_noise_space : forall eigh cov num azi zen P w v,
  eigh cov = (w, v) -> is_eigh cov w v -> (exists N, nr cov = ((N + 1) ^ 2)%nat) -> length zen = length azi ->
  (num = 0 \/ Z.of_nat (nr cov) <= num)%Z -> sh_music eigh cov num azi zen = Ok P -> P = repeat 100000000000 (length azi).
Proof. exact music_no_noise_space. Qed.
Print Assumptions C43_no_noise_space.
Example C43_nonvacuous : exists Ys, is_eigh src_cov [1; 1; 1; 2] src_vec /\ sh_matrix 1 [0] [0] = Ok Ys /\
  forall i j, (i < nr src_cov)%nat -> (j < nr src_cov)%nat -> ent src_cov i j = 1 * delta i j + rsum (length [0]) (fun s => nth s [PI] 0 * (ent Ys s i * ent Ys s j)).
Proof. exact ex_music. Qed.

(** ** C75 *)

Theorem C75_sector_patterns : forall t_design N A v,
  let azi := map (fun u => fst (vec2dir u)) v in
  let zen := map (fun u => match snd (vec2dir u) with Some z => z | None => 0 end) v in
  nc A = ((N + 1) ^ 2)%nat -> t_design (2 * (Z.of_nat N + 1))%Z = Ok v -> (forall u, In u v -> dot3 u u = 1) ->
  exact_for sh_real (2 * (N + 1)) azi zen (equal_weights (length v)) ->
  exists rows, sh_sector_beamformer t_design A = Ok rows /\ length rows = (4 * nr A)%nat /\
    forall s c, (s < nr A)%nat -> (c < 4)%nat -> length (nth (4 * s + c) rows []) = ((N + 1 + 1) ^ 2)%nat /\
     forall az ze, 0 <= ze <= PI -> field_value sh_real (N + 1) (nth (4 * s + c) rows []) az ze = factor c (sph2cart az ze 1) * field_value sh_real N (mrow A s) az ze.
Proof. exact sector_spec. Qed.
Print Assumptions C75_sector_patterns.
Example C75_nonvacuous : nc (meye 1) = ((0 + 1) ^ 2)%nat /\ (forall u, In u octahedron -> dot3 u u = 1) /\
  exact_for sh_real (2 * (0 + 1)) (map (fun u => fst (vec2dir u)) octahedron)
    (map (fun u => match snd (vec2dir u) with Some z => z | None => 0 end) octahedron) (equal_weights (length octahedron)).
Proof. split; [reflexivity|exact octa_vec2dir]. Qed.

