(** Values of the Ambisonic decoders on any layout (C50, C51); existence and
    uniqueness of the decompositions behind MAD and EPAD (C114). *)
From Verif Require Import Base M_utils M_sig M_sph0 M_sph M_decoder M_decoder2 S_utils S_sph S_grids S_decoder S_decoder2 S_lsq S_svd X_sph X_dec2
  P_decv P_svd2 P_svd3 P_svd4 X_svd.
Open Scope R_scope.

(** ** C50, C51 *)
Theorem C50_allrap2_value : forall lstsq3 jobs sched (src : list V3) s N_sph h kp N reals,
  lstsq3_contract lstsq3 -> ambi_ready s h kp -> fresh_hull h ->
  order_in_force N_sph s N -> (1 <= jobs)%Z -> fair (length kp) sched -> (forall p, In p src -> p <> (0, 0, 0)) ->
  real_ls (h_imag h) (length (h_points h)) reals ->
  exists G s' b rows, allrap2 lstsq3 jobs sched src s N_sph = (Ok (Some G), s') /\
    length b = (N + 1)%nat /\ rsum (N + 1) (fun n => (2 * INR n + 2) / (4 * PI) * nth n b 0 ^ 2) = 1 /\
    (exists c, 0 < c /\ forall n, (n <= N)%nat -> nth n b 0 = c * max_rE N n) /\
    Forall2 (panning_row (POrd 2) h (h_valid h)) kp rows /\ nr G = length src /\ nc G = length reals /\
    forall i l, (i < length src)%nat -> (l < length reals)%nat -> ent G i l
      = sqrt (4 * PI / INR (length kp) * rsum (length kp) (fun k => pattern b (cos_angle (nth i src (0, 0, 0)) (nth k kp (0, 0, 0))) ^ 2 * nth (nth l reals 0%nat) (nth k rows []) 0 ^ 2)).
Proof. exact f_allrap2. Qed.
Print Assumptions C50_allrap2_value.
Theorem C50_allrad_value : forall lstsq3 jobs sched F s N_sph h kp N reals,
  lstsq3_contract lstsq3 -> ambi_ready s h kp -> fresh_hull h ->
  order_in_force N_sph s N -> (1 <= jobs)%Z -> fair (length kp) sched -> nr F = ((N + 1) ^ 2)%nat ->
  real_ls (h_imag h) (length (h_points h)) reals ->
  exists LS s' a rows azk zek, allrad lstsq3 jobs sched F s N_sph = (Ok (Some LS), s') /\
    length a = (N + 1)%nat /\ unit_response a /\ (exists c, 0 < c /\ forall n, (n <= N)%nat -> nth n a 0 = c * max_rE N n) /\
    Forall2 (panning_row (POrd 2) h (h_valid h)) kp rows /\ angles_of kp azk zek /\ nr LS = length reals /\ nc LS = nc F /\
    forall l t, (l < length reals)%nat -> (t < nc F)%nat -> ent LS l t
      = 4 * PI / INR (length kp) * rsum (length kp) (fun k => nth (nth l reals 0%nat) (nth k rows []) 0 *
           rsum (N + 1) (fun n => nth n a 0 * rsum (2 * n + 1) (fun i => ent F (n * n + i) t * sh_real n (Z.of_nat i - Z.of_nat n) (nth k azk 0) (nth k zek 0)))).
Proof. exact f_allrad. Qed.
Print Assumptions C50_allrad_value.
Theorem C50_errors : forall lstsq3 jobs sched src F s N_sph,
  (s_ambi s = None \/ s_kernel s = None ->
   allrap lstsq3 jobs sched src s N_sph = (Err ValueError, s) /\ allrap2 lstsq3 jobs sched src s N_sph = (Err ValueError, s) /\
   allrad lstsq3 jobs sched F s N_sph = (Err ValueError, s) /\ allrad2 lstsq3 jobs sched F s N_sph = (Err ValueError, s)) /\
  forall h kp N, ambi_ready s h kp -> order_in_force N_sph s N -> (nr F < (N + 1) ^ 2 \/ (N + 2) ^ 2 <= nr F)%nat ->
   allrad lstsq3 jobs sched F s N_sph = (Err AssertionError, s) /\ allrad2 lstsq3 jobs sched F s N_sph = (Err AssertionError, s).
Proof. exact f_allra_errors. Qed.
Print Assumptions C50_errors.
Theorem C51_sad_value : forall lstsq3 F s N azi zen, let L := length (h_points (s_hull s)) in
  (forall p, In p (h_points (s_hull s)) -> p <> (0, 0, 0)) -> angles_of (h_points (s_hull s)) azi zen -> ((N + 1) ^ 2 <= nr F)%nat ->
  exists LS, sad lstsq3 F s (Some N) = Ok (Some LS) /\ nr LS = L /\ nc LS = nc F /\
    forall l t, (l < L)%nat -> (t < nc F)%nat -> ent LS l t = 4 * PI / ((INR N + 1) * sqrt (INR L)) * field_value sh_real N (map (fun k => ent F k t) (seq 0 (nr F))) (nth l azi 0) (nth l zen 0).
Proof. exact f_sad. Qed.
Print Assumptions C51_sad_value.
Theorem C51_mad_best_fit : forall lstsq3 pinv F s N Y,
  ls_matrix N (s_hull s) = Ok (Some Y) -> penrose Y (pinv Y) -> ((N + 1) ^ 2 <= nr F)%nat ->
  exists LS, mad lstsq3 pinv F s (Some N) = Ok (Some LS) /\ nr LS = length (h_points (s_hull s)) /\ nc LS = nc F /\
    forall t, (t < nc F)%nat -> best_fit (mtr Y) (fun c => sqrt (INR (nr LS)) / (INR N + 1) * ent F c t) (fun l => ent LS l t).
Proof. exact f_mad. Qed.
Print Assumptions C51_mad_best_fit.
Theorem C51_epad_few : forall lstsq3 svd F s N Y U sv VH,
  ls_matrix N (s_hull s) = Ok (Some Y) -> svd Y = (U, sv, VH) -> is_svd Y U sv VH ->
  ((N + 1) ^ 2 <= nr F)%nat -> (0 < length (h_points (s_hull s)) < (N + 1) ^ 2)%nat ->
  let K := ((N + 1) ^ 2)%nat in
  exists LS D, epad lstsq3 svd F s (Some N) = Ok (Some LS) /\ nr D = nr Y /\ nc D = nc Y /\ product D (first_rows K F) LS /\
    (forall l l', (l < nr Y)%nat -> (l' < nr Y)%nat -> rsum K (fun a => ent D l a * ent D l' a) = 4 * PI / INR K * delta l l') /\
    (forall t, (t < nc F)%nat -> col_energy LS t <= 4 * PI / INR K * rsum K (fun k => ent F k t * ent F k t)) /\
    let M := fun a b => rsum (nr Y) (fun l => ent D l a * ent Y l b) in
    (forall a b, (a < nc Y)%nat -> (b < nc Y)%nat -> M a b = M b a) /\
    (forall x, 0 <= rsum (nc Y) (fun a => rsum (nc Y) (fun b => x a * M a b * x b))).
Proof. exact f_epad_few. Qed.
Print Assumptions C51_epad_few.
Example C51_few_nonvacuous : exists svd Y U sv VH, ls_matrix 2 (s_hull octa_setup) = Ok (Some Y) /\ svd Y = (U, sv, VH) /\ is_svd Y U sv VH /\ (0 < length (h_points (s_hull octa_setup)) < (2 + 1) ^ 2)%nat.
Proof. exact ex_few. Qed.
(** ** C114 *)
Theorem C114_svd_exists : forall Y : mat, exists U sv VH, is_svd Y U sv VH.
Proof. exact svd_exists. Qed.
Print Assumptions C114_svd_exists.
Theorem C114_pinv_exists : forall Y, exists P, penrose Y P.
Proof. exact penrose_exists. Qed.
Print Assumptions C114_pinv_exists.
Theorem C114_pinv_unique : forall Y P Q, penrose Y P -> penrose Y Q -> meq P Q.
Proof. exact penrose_unique. Qed.
Print Assumptions C114_pinv_unique.
Theorem C114_mad_determined : forall lstsq3 pinv pinv' F s N, exact_pinv pinv -> exact_pinv pinv' ->
  (forall p, In p (h_points (s_hull s)) -> p <> (0, 0, 0)) -> ((N + 1) ^ 2 <= nr F)%nat ->
  exists LS LS', mad lstsq3 pinv F s (Some N) = Ok (Some LS) /\ mad lstsq3 pinv' F s (Some N) = Ok (Some LS') /\ meq LS LS'.
Proof. exact f_mad_determined. Qed.
Print Assumptions C114_mad_determined.
Theorem C114_epad_determined : forall lstsq3 s N Y, ls_matrix N (s_hull s) = Ok (Some Y) -> (0 < length (h_points (s_hull s)))%nat ->
  (full_rank Y <-> forall svd svd' F, exact_svd svd -> exact_svd svd' -> ((N + 1) ^ 2 <= nr F)%nat ->
     exists LS LS', epad lstsq3 svd F s (Some N) = Ok (Some LS) /\ epad lstsq3 svd' F s (Some N) = Ok (Some LS') /\ meq LS LS').
Proof. exact f_epad_determined. Qed.
Print Assumptions C114_epad_determined.
Theorem C114_epad_determined_refuted : exists s svd svd' F, exact_svd svd /\ exact_svd svd' /\
  h_points (s_hull s) = [(1, 1, 1); (1, -1, -1); (-1, 1, -1); (-1, -1, 1); (-1, -1, -1); (-1, 1, 1); (1, -1, 1); (1, 1, -1)] /\ nr F = 9%nat /\
  forall lstsq3, exists LS LS', epad lstsq3 svd F s (Some 2%nat) = Ok (Some LS) /\ epad lstsq3 svd' F s (Some 2%nat) = Ok (Some LS') /\ ~ meq LS LS'.
Proof. exact epad_refuted. Qed.
Print Assumptions C114_epad_determined_refuted.
Example C114_nonvacuous : (exists pinv, exact_pinv pinv) /\ (exists svd, exact_svd svd) /\
  (exists Y, ls_matrix 1 (s_hull tetra_setup) = Ok (Some Y) /\ full_rank Y) /\ (forall p, In p (h_points (s_hull tetra_setup)) -> p <> (0, 0, 0)).
Proof. exact ex_exact. Qed.
