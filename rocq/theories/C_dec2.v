(** Properties of the Ambisonic part of decoder.py. *)
From Verif Require Import Base BaseFacts M_utils M_sph0 M_sig M_process M_sph M_grids M_decoder M_decoder2
  S_utils S_sph S_grids S_decoder S_decoder2 P_dec9 P_dec10 X_sph X_dec1 X_dec2.
Open Scope R_scope.

(** * C50 *)
Theorem C50_panning_function : forall lstsq3 jobs sched (src : list V3) s N_sph h kp N reals,
  lstsq3_contract lstsq3 -> ambi_ready s h kp -> fresh_hull h ->
  order_in_force N_sph s N -> (1 <= jobs)%Z -> fair (length kp) sched -> (forall p, In p src -> p <> (0, 0, 0)) ->
  real_ls (h_imag h) (length (h_points h)) reals ->
  exists G s' a rows, allrap lstsq3 jobs sched src s N_sph = (Ok (Some G), s') /\
    length a = (N + 1)%nat /\ unit_response a /\ (exists c, 0 < c /\ forall n, (n <= N)%nat -> nth n a 0 = c * max_rE N n) /\
    Forall2 (panning_row (POrd 2) h (h_valid h)) kp rows /\ nr G = length src /\ nc G = length reals /\
    forall i l, (i < length src)%nat -> (l < length reals)%nat -> ent G i l
      = 4 * PI / INR (length kp) * rsum (length kp) (fun k => pattern a (cos_angle (nth i src (0, 0, 0)) (nth k kp (0, 0, 0))) * nth (nth l reals 0%nat) (nth k rows []) 0).
Proof. exact allrap_final. Qed.
Print Assumptions C50_panning_function.
Theorem C50_decoder_is_panner : forall lstsq3 jobs sched jobs' sched' (src : list V3) azi zen sig s N_sph h kp N rows,
  ambi_ready s h kp ->
  fst (vbap_hull lstsq3 1 [] kp h (POrd 2) None) = Ok rows -> order_in_force N_sph s N ->
  (1 <= jobs)%Z -> fair (length kp) sched -> (1 <= jobs')%Z -> fair (length kp) sched' ->
  angles_of src azi zen -> nr sig = length src ->
  exists F G LS s1 s2 s3, src_to_sh sig azi zen N = Ok F /\ allrap lstsq3 jobs sched src s N_sph = (Ok (Some G), s1) /\
    allrad lstsq3 jobs' sched' F s N_sph = (Ok (Some LS), s2) /\ allrad lstsq3 jobs' sched' F s1 N_sph = (Ok (Some LS), s3) /\
    product (mtr G) sig LS.
Proof. exact allrad_final. Qed.
Print Assumptions C50_decoder_is_panner.
Theorem C50_allrad2 : forall lstsq3 jobs sched F s N_sph h kp N,
  lstsq3_contract lstsq3 -> ambi_ready s h kp -> fresh_hull h ->
  order_in_force N_sph s N -> (1 <= jobs)%Z -> fair (length kp) sched -> nr F = ((N + 1) ^ 2)%nat ->
  exists LS G azk zek s1, allrap2 lstsq3 jobs sched kp s (Some N) = (Ok (Some G), s1) /\
    allrad2 lstsq3 jobs sched F s N_sph = (Ok (Some LS), s1) /\ angles_of kp azk zek /\ nr LS = nc G /\ nc LS = nc F /\
    forall l t, (l < nc G)%nat -> (t < nc F)%nat -> ent LS l t
      = 4 * PI / INR (length kp) * rsum (length kp) (fun k => ent G k l *
           field_value sh_real N (map (fun c => ent F c t) (seq 0 ((N + 1) ^ 2))) (nth k azk 0) (nth k zek 0)).
Proof. exact allrad2_final. Qed.
Print Assumptions C50_allrad2.
Example C50_nonvacuous : lstsq3_contract adj_lstsq /\ ambi_ready octa_setup octa_hull octahedron /\ fresh_hull octa_hull /\
  order_in_force None octa_setup 1 /\ real_ls (h_imag octa_hull) 6 [0; 1; 2; 3; 4; 5]%nat /\ angles_of octahedron octa_azi octa_zen.
Proof.
  split; [exact adj_contract|]. split; [exact octa_ready|]. split; [exact octa_fresh|]. split; [right; auto|]. split; [|exact octa_angles].
  cbn. repeat (right; split; [tauto|]; eexists; split; [reflexivity|]). reflexivity.
Qed.
(** * C51 *)
Theorem C51_harmonics_at_loudspeakers : forall N h,
  (forall p, In p (h_points h) -> p <> (0, 0, 0)) -> exists Y, ls_matrix N h = Ok (Some Y) /\
  nr Y = length (h_points h) /\ nc Y = ((N + 1) ^ 2)%nat /\
  forall azi zen i n k, angles_of (h_points h) azi zen -> (i < length (h_points h))%nat -> (n <= N)%nat -> (k < 2 * n + 1)%nat ->
    ent Y i (n * n + k) = sh_real n (Z.of_nat k - Z.of_nat n) (nth i azi 0) (nth i zen 0).
Proof. exact ls_matrix_ok. Qed.
Print Assumptions C51_harmonics_at_loudspeakers.
Theorem C51_epad_energy : forall lstsq3 svd F s N Y U sv VH,
  ls_matrix N (s_hull s) = Ok (Some Y) -> svd Y = (U, sv, VH) -> is_svd Y U sv VH ->
  ((N + 1) ^ 2 <= nr F)%nat -> ((N + 1) ^ 2 <= length (h_points (s_hull s)))%nat ->
  exists LS, epad lstsq3 svd F s (Some N) = Ok (Some LS) /\ nr LS = length (h_points (s_hull s)) /\ nc LS = nc F /\
    (forall t, (t < nc F)%nat -> col_energy LS t = 4 * PI / INR ((N + 1) ^ 2) * rsum ((N + 1) ^ 2) (fun k => ent F k t * ent F k t)) /\
    exists D, nr D = nr Y /\ nc D = nc Y /\ product D (first_rows ((N + 1) ^ 2) F) LS /\
      let M := fun a b => rsum (nr Y) (fun l => ent D l a * ent Y l b) in
      (forall a b, (a < nc Y)%nat -> (b < nc Y)%nat -> M a b = M b a) /\
      (forall x, 0 <= rsum (nc Y) (fun a => rsum (nc Y) (fun b => x a * M a b * x b))).
Proof. exact epad_final. Qed.
Print Assumptions C51_epad_energy.
Theorem C51_epad_plane_wave : forall lstsq3 svd s N Y U sv VH (v : V3) azi zen,
  ls_matrix N (s_hull s) = Ok (Some Y) -> svd Y = (U, sv, VH) -> is_svd Y U sv VH ->
  ((N + 1) ^ 2 <= length (h_points (s_hull s)))%nat -> angles_of [v] [azi] [zen] ->
  exists F LS, src_to_sh (Mat 1 1 (fun _ _ => 1)) [azi] [zen] N = Ok F /\ epad lstsq3 svd F s (Some N) = Ok (Some LS) /\
    rsum (length (h_points (s_hull s))) (fun l => ent LS l 0 ^ 2) = 1.
Proof. exact epad_plane_wave. Qed.
Print Assumptions C51_epad_plane_wave.
Theorem C51_uniform_layouts : forall lstsq3 pinv svd F s N Y U sv VH,
  ls_matrix N (s_hull s) = Ok (Some Y) -> (0 < length (h_points (s_hull s)))%nat ->
  sector_grid Y (length (h_points (s_hull s))) -> penrose Y (pinv Y) -> svd Y = (U, sv, VH) -> is_svd Y U sv VH -> ((N + 1) ^ 2 <= nr F)%nat ->
  exists LS, sad lstsq3 F s (Some N) = Ok (Some LS) /\ nr LS = length (h_points (s_hull s)) /\ nc LS = nc F /\
    (forall t, (t < nc F)%nat -> col_energy LS t = 4 * PI / INR ((N + 1) ^ 2) * rsum ((N + 1) ^ 2) (fun k => ent F k t * ent F k t)) /\
    (exists M, mad lstsq3 pinv F s (Some N) = Ok (Some M) /\ meq M LS) /\
    (exists M, epad lstsq3 svd F s (Some N) = Ok (Some M) /\ meq M LS).
Proof. exact uniform_final. Qed.
Print Assumptions C51_uniform_layouts.
Theorem C51_mode_matching : forall lstsq3 pinv F s N Y,
  ls_matrix N (s_hull s) = Ok (Some Y) -> left_invertible Y -> penrose Y (pinv Y) -> ((N + 1) ^ 2 <= nr F)%nat ->
  let L := length (h_points (s_hull s)) in
  exists LS, mad lstsq3 pinv F s (Some N) = Ok (Some LS) /\ nr LS = L /\ nc LS = nc F /\
    (forall c t, (c < (N + 1) ^ 2)%nat -> (t < nc F)%nat -> rsum L (fun l => ent Y l c * ent LS l t) = sqrt (INR L) / (INR N + 1) * ent F c t) /\
    (forall X t, (t < nc F)%nat -> (forall c, (c < (N + 1) ^ 2)%nat -> rsum L (fun l => ent Y l c * X l) = sqrt (INR L) / (INR N + 1) * ent F c t) ->
       col_energy LS t <= rsum L (fun l => X l * X l)).
Proof. exact mad_final. Qed.
Print Assumptions C51_mode_matching.
Theorem C51_default_order : forall lstsq3 s F n,
  s_order s = Some (S n) \/ (s_order s = None /\ get_characteristic_order lstsq3 s = Ok (S n)) ->
  forall pinv svd, sad lstsq3 F s None = sad lstsq3 F s (Some (S n)) /\ mad lstsq3 pinv F s None = mad lstsq3 pinv F s (Some (S n)) /\
    epad lstsq3 svd F s None = epad lstsq3 svd F s (Some (S n)).
Proof. exact default_order. Qed.
Print Assumptions C51_default_order.
Theorem C51_too_few_channels : forall lstsq3 pinv svd s F N,
  (nr F < (N + 1) ^ 2)%nat ->
  sad lstsq3 F s (Some N) = Err AssertionError /\ mad lstsq3 pinv F s (Some N) = Err AssertionError /\ epad lstsq3 svd F s (Some N) = Err AssertionError.
Proof. exact too_few. Qed.
Print Assumptions C51_too_few_channels.
Example C51_nonvacuous : exists Y, ls_matrix 1 (s_hull tetra_setup) = Ok (Some Y) /\ sector_grid Y (length (h_points (s_hull tetra_setup))) /\
  left_invertible Y /\ penrose Y (tetra_pinv Y) /\
  is_svd Y (fst (fst (tetra_svd Y))) (snd (fst (tetra_svd Y))) (snd (tetra_svd Y)) /\ ((1 + 1) ^ 2 <= length (h_points (s_hull tetra_setup)))%nat.
Proof. destruct tetra_ok as (Y & A & B & C & D & E). exists Y. cbn. repeat (split; [assumption|]). lia. Qed.
(** * C53 *)
Theorem C53_energy : forall lstsq3 jobs sched (src : list V3) s N_sph h kp N azk zek i,
  lstsq3_contract lstsq3 -> ambi_ready s h kp -> fresh_hull h ->
  order_in_force N_sph s N -> (1 <= jobs)%Z -> fair (length kp) sched -> (forall p, In p src -> p <> (0, 0, 0)) ->
  h_imag h = None -> (forall d, In d (h_d h) -> dist_gain d (h_a h) = 1) ->
  (forall p, In p kp -> exists f, In f (h_valid h) /\ inside_cone (h_points h) f p) ->
  angles_of kp azk zek -> exact_for sh_real (2 * N) azk zek (equal_weights (length kp)) -> (0 < length kp)%nat -> (i < length src)%nat ->
  exists G s', allrap2 lstsq3 jobs sched src s N_sph = (Ok (Some G), s') /\ nr G = length src /\ nc G = length (h_points h) /\
    let e := rsum (nc G) (fun l => ent G i l ^ 2) in
    e = rsum (N + 1) (fun n => (2 * INR n + 1) * max_rE N n ^ 2) / rsum (N + 1) (fun n => (2 * INR n + 2) * max_rE N n ^ 2) /\ e < 1.
Proof. exact allrap2_final. Qed.
Print Assumptions C53_energy.
Theorem C53_unit_energy_refuted : exists lstsq3 s h kp src azk zek N G s', lstsq3_contract lstsq3 /\ ambi_ready s h kp /\ fresh_hull h /\ h_imag h = None /\
  (forall d, In d (h_d h) -> dist_gain d (h_a h) = 1) /\ (forall p, In p kp -> exists f, In f (h_valid h) /\ inside_cone (h_points h) f p) /\
  angles_of kp azk zek /\ exact_for sh_real (2 * N) azk zek (equal_weights (length kp)) /\
  allrap2 lstsq3 1 [] src s (Some N) = (Ok (Some G), s') /\ rsum (nc G) (fun l => ent G 0 l ^ 2) <> 1.
Proof. exact unit_energy_refuted. Qed.
Print Assumptions C53_unit_energy_refuted.
Example C53_nonvacuous : h_imag octa_hull = None /\ (forall d, In d (h_d octa_hull) -> dist_gain d (h_a octa_hull) = 1) /\
  (forall p, In p octahedron -> exists f, In f (h_valid octa_hull) /\ inside_cone (h_points octa_hull) f p) /\
  angles_of octahedron octa_azi octa_zen /\ exact_for sh_real (2 * 1) octa_azi octa_zen (equal_weights (length octahedron)).
Proof. exact (conj eq_refl (conj octa_dist (conj octa_cones (conj octa_angles octa_grid)))). Qed.
(** * C73 *)
Theorem C73_order_positive : forall lstsq3 h n,
  characteristic_ambisonic_order lstsq3 h = Ok n -> (1 <= n)%Z.
Proof. exact char_order_pos. Qed.
Print Assumptions C73_order_positive.
Theorem C73_no_value_error : forall lstsq3 s z,
  s_order s = None -> characteristic_ambisonic_order lstsq3 (s_hull s) = Ok z ->
  get_characteristic_order lstsq3 s = Ok (Z.to_nat z) /\ (1 <= Z.to_nat z)%nat.
Proof. exact get_order_ok. Qed.
Print Assumptions C73_no_value_error.
Theorem C73_least_order : forall lstsq3 h n,
  characteristic_ambisonic_order lstsq3 h = Ok n ->
  lstsq3_contract lstsq3 -> h_vbase h = None -> hull_wf h -> Forall (in_range (length (h_points h))) (h_encloses h) ->
  (forall ps, length ps = length (h_points h) -> (forall i, (i < length ps)%nat -> nth i ps (0,0,0) = unit3 (nth i (h_points h) (0,0,0))) -> Forall (independent ps) (h_encloses h)) ->
  exists ps rows, length ps = length (h_points h) /\ (forall i, (i < length ps)%nat -> nth i ps (0,0,0) = unit3 (nth i (h_points h) (0,0,0))) /\
    Forall2 (panning_row (POrd 2) (set_points h ps) (h_encloses h)) (map (fun c => if Req_EM_T (dot3 c c) 0 then (0,0,0) else unit3 c) (h_centroids h)) rows /\
    rows <> [] /\
    let spread := lsum (map (fun g => 2 * acos (snd (r_E_row ps g)) * (180 / PI)) rows) / INR (length rows) in
    0 < spread <= 180 /\
    forall m, (0 <= m)%Z -> ((n <= m)%Z <-> 1379 / 10 / (IZR m + 151 / 100) <= spread / 2).
Proof. exact char_order_final. Qed.
Print Assumptions C73_least_order.
Theorem C73_setup : forall chull lstsq3 nd s upd im order Nk s',
  ambisonics_setup chull lstsq3 nd s upd im order (Some Nk) = (Ok tt, s') ->
  s_hull s' = s_hull s /\
  exists kp, s_kernel s' = Some (kp, Nk) /\ load_n_design nd (2 * Z.of_nat Nk) = Ok kp /\
  (exists n, s_order s' = Some n /\ (order = Some n \/ order = None /\ get_characteristic_order lstsq3 s = Ok n)) /\
  exists h added, s_ambi s' = Some h /\ h_points h = h_points (s_hull s) ++ added /\ h_vbase h = None /\ hull_wf h /\
    (forall l, real_ls (h_imag h) (length (h_points h)) l <-> l = seq 0 (length (h_points (s_hull s)))) /\
    match upd, im with
    | false, _ => added = []
    | true, Some ps => added = ps
    | true, None => exists p, find_imaginary_loudspeaker (s_hull s) = Ok (Some p) /\ added = [p]
    end.
Proof. exact setup_ok. Qed.
Print Assumptions C73_setup.
Theorem C73_none_kernel_raises : forall chull lstsq3 nd s upd im order,
  exists e, fst (ambisonics_setup chull lstsq3 nd s upd im order None) = Err e.
Proof. exact setup_none. Qed.
Print Assumptions C73_none_kernel_raises.
Theorem C73_none_kernel_refuted : exists chull lstsq3 nd s, s_order s = Some 1%nat /\
  fst (ambisonics_setup chull lstsq3 nd s false None None None) = Err TypeError /\
  fst (ambisonics_setup chull lstsq3 nd s false None None (Some 1%nat)) = Ok tt.
Proof. exact none_kernel_refuted. Qed.
Print Assumptions C73_none_kernel_refuted.
Example C73_nonvacuous : hull_wf tri_hull /\ h_vbase tri_hull = None /\ Forall (in_range (length (h_points tri_hull))) (h_encloses tri_hull) /\
  Forall (independent (map unit3 octahedron)) (h_encloses tri_hull) /\ exists n, characteristic_ambisonic_order adj_lstsq tri_hull = Ok n.
Proof. exact tri_ok. Qed.
Example C73_setup_nonvacuous : fst (ambisonics_setup (fun _ => octa_faces) adj_lstsq (fun _ => octahedron) octa_setup true (Some [(0, 0, -1)]) (Some 1%nat) (Some 1%nat)) = Ok tt.
Proof. reflexivity. Qed.
(** * C74 *)
Theorem C74_signals : forall h G sig,
  (nc G = length (h_points h) ->
   (forall x, sig = Some x -> length x = nr G \/ length x = 1%nat \/ nr G = 1%nat) ->
   exists out, loudspeaker_signals h G sig = Ok out /\ nr out = nc G /\
     nc out = match sig with None => nr G | Some x => if Nat.eqb (length x) 1 then nr G else length x end /\
     forall l t, (l < nc G)%nat -> (t < nc out)%nat ->
       ent out l t = (match sig with None => 1 | Some x => if Nat.eqb (length x) 1 then nth 0 x 0 else nth t x 0 end)
                     * ent G (if Nat.eqb (nr G) 1 then 0%nat else t) l).
Proof. exact ls_signals_spec. Qed.
Print Assumptions C74_signals.
Theorem C74_wrong_loudspeakers : forall h G sig,
  nc G <> length (h_points h) -> loudspeaker_signals h G sig = Err AssertionError.
Proof. exact ls_signals_bad. Qed.
Print Assumptions C74_wrong_loudspeakers.
Theorem C74_wrong_length : forall h G x,
  nc G = length (h_points h) -> length x <> nr G -> length x <> 1%nat -> nr G <> 1%nat -> loudspeaker_signals h G (Some x) = Err ValueError.
Proof. exact ls_signals_mismatch. Qed.
Print Assumptions C74_wrong_length.
Example C74_nonvacuous : exists out, loudspeaker_signals tetra_hull (Mat 2 4 (fun t l => INR (t + l))) (Some [3; 5]) = Ok out /\ ent out 2 1 = 5 * INR 3.
Proof. eexists. split; [reflexivity|]. reflexivity. Qed.
