(** Layouts around the listener (C122). *)
From Coq Require Import Permutation.
From Verif Require Import Base M_utils M_sph0 M_sig M_process M_sph M_grids M_decoder M_decoder2 M_process2 M_plot S_utils S_sph S_grids S_decoder S_decoder2 S_plot S_retain P_grids3 X_sph X_dec1 X_dec2 X_cover S_cover.
Open Scope R_scope.

(** ** C122 *)
Theorem C122_covers : forall ps vs src, vs <> [] -> Forall (independent ps) vs -> goes_on ps vs -> src <> (0, 0, 0) ->
  exists f, In f vs /\ inside_cone ps f src.
Proof. exact f_around. Qed.
Print Assumptions C122_covers.
Theorem C122_convex : forall ps vs, Forall (independent ps) vs -> encloses ps vs -> closed_surface vs -> goes_on ps vs.
Proof. exact f_convex. Qed.
Print Assumptions C122_convex.
Theorem C122_active : forall lstsq3 o jobs sched src h vs,
  lstsq3_contract lstsq3 -> norm_order o -> h_vbase h = None -> hull_wf h -> (forall d, In d (h_d h) -> 0 < d) ->
  Forall (in_range (length (h_points h))) (in_force h vs) -> Forall (independent (h_points h)) (in_force h vs) ->
  (1 <= jobs)%Z -> (forall i, (i < length src)%nat -> (3 <= count_occ Nat.eq_dec sched i)%nat) ->
  in_force h vs <> [] -> goes_on (h_points h) (in_force h vs) -> (forall v, In v src -> v <> (0, 0, 0)) ->
  exists rows, fst (vbap_hull lstsq3 jobs sched src h o vs) = Ok rows /\ length rows = length src /\
    forall row, In row rows -> exists j, (j < length (h_points h))%nat /\ nth j row 0 <> 0.
Proof. exact f_active. Qed.
Print Assumptions C122_active.
Theorem C122_performance : forall s lstsq3 pinv svd sa se,
  ls_ok (s_hull s) -> lstsq3_contract lstsq3 -> h_vbase (s_hull s) = None ->
  Forall (in_range (length (h_points (s_hull s)))) (h_valid (s_hull s)) -> Forall (independent (h_points (s_hull s))) (h_valid (s_hull s)) ->
  h_valid (s_hull s) <> [] -> goes_on (h_points (s_hull s)) (h_valid (s_hull s)) ->
  exists ms s', decoder_performance lstsq3 pinv svd s RVbap sa se None = (Ok (Some ms), s') /\ length ms = length (perf_grid sa se) /\
  forall i d, (i < length (perf_grid sa se))%nat ->
    let dir := grid_dir (nth i (perf_grid sa se) (0, 0)) in let h := s_hull s in
    exists row, panning_row (POrd 2) h (h_valid h) dir row /\ nth i ms d = perf_measure h dir row /\ energy_at h row = 1 /\ pm_error (nth i ms d) <> None.
Proof. exact f_performance. Qed.
Print Assumptions C122_performance.
Theorem C122_allrap2 : forall lstsq3 jobs sched (src : list V3) s N_sph h kp N azk zek,
  lstsq3_contract lstsq3 -> ambi_ready s h kp -> fresh_hull h ->
  order_in_force N_sph s N -> (1 <= jobs)%Z -> fair (length kp) sched -> (forall p, In p src -> p <> (0, 0, 0)) ->
  h_imag h = None -> (forall d, In d (h_d h) -> dist_gain d (h_a h) = 1) ->
  h_valid h <> [] -> goes_on (h_points h) (h_valid h) ->
  angles_of kp azk zek -> exact_for sh_real (2 * N) azk zek (equal_weights (length kp)) -> (0 < length kp)%nat -> (0 < length src)%nat ->
  exists G s', allrap2 lstsq3 jobs sched src s N_sph = (Ok (Some G), s') /\ nr G = length src /\ nc G = length (h_points h) /\
    forall i, (i < length src)%nat ->
    rsum (nc G) (fun l => ent G i l ^ 2) = rsum (N + 1) (fun n => (2 * INR n + 1) * max_rE N n ^ 2) / rsum (N + 1) (fun n => (2 * INR n + 2) * max_rE N n ^ 2).
Proof. exact f_allrap2. Qed.
Print Assumptions C122_allrap2.
Theorem C122_retain : forall h idx reals v full row,
  fresh_hull h -> (forall d, In d (h_d h) -> dist_gain d (h_a h) = 1) ->
  real_ls (Some idx) (length (h_points h)) reals -> panning_row (POrd 2) h (h_valid h) v full -> only reals full row ->
  h_valid h <> [] -> goes_on (h_points h) (h_valid h) -> v <> (0, 0, 0) ->
  total_energy row + energy_on idx (length (h_points h)) full = 1.
Proof. exact f_retain. Qed.
Print Assumptions C122_retain.
Theorem C122_unique : forall ps vs f g u v src, Forall (independent ps) vs -> encloses ps vs -> In f vs -> In g vs ->
  0 <= vx u -> 0 <= vy u -> 0 <= vz u -> 0 <= vx v -> 0 <= vy v -> 0 <= vz v -> combines ps f u src -> combines ps g v src ->
  forall j, on_face f u j = on_face g v j.
Proof. exact f_unique. Qed.
Print Assumptions C122_unique.
Theorem C122_face_order : forall o h vs vs' src row row', norm_order o -> Forall (in_range (length (h_points h))) vs -> Forall (independent (h_points h)) vs ->
  hull_wf h -> (forall d, In d (h_d h) -> 0 < d) -> encloses (h_points h) vs -> Permutation vs vs' ->
  panning_row o h vs src row -> panning_row o h vs' src row' -> (forall x, In x row -> 0 <= x) -> (forall x, In x row' -> 0 <= x) -> row = row'.
Proof. exact f_order. Qed.
Print Assumptions C122_face_order.
Theorem C122_hole_refuted : forall lstsq3, lstsq3_contract lstsq3 -> exists h src row, h_vbase h = None /\ hull_wf h /\ (forall d, In d (h_d h) -> 0 < d) /\
  Forall (independent (h_points h)) (h_valid h) /\ h_valid h <> [] /\ encloses (h_points h) (h_valid h) /\ src <> (0, 0, 0) /\
  fst (vbap_hull lstsq3 1 [] [src] h (POrd 2) None) = Ok [row] /\ forall j, nth j row 0 = 0.
Proof. exact f_hole. Qed.
Print Assumptions C122_hole_refuted.
Theorem C122_face_order_refuted : forall lstsq3, lstsq3_contract lstsq3 -> exists h vs vs' src row row', h_vbase h = None /\ hull_wf h /\ (forall d, In d (h_d h) -> 0 < d) /\
  Forall (independent (h_points h)) vs /\ encloses (h_points h) vs /\ closed_surface vs /\ Permutation vs vs' /\
  fst (vbap_hull lstsq3 1 [] [src] h (POrd 2) (Some vs)) = Ok [row] /\ fst (vbap_hull lstsq3 1 [] [src] h (POrd 2) (Some vs')) = Ok [row'] /\
  nth 0 row 0 < 0 /\ nth 1 row 0 = 0 /\ nth 0 row' 0 = 0 /\ 0 < nth 1 row' 0.
Proof. exact f_order_refuted. Qed.
Print Assumptions C122_face_order_refuted.
Example C122_nonvacuous : let h := oct_hull oct8 in
  ls_ok h /\ hull_wf h /\ h_vbase h = None /\ (forall d, In d (h_d h) -> 0 < d) /\ Forall (in_range (length (h_points h))) (h_valid h) /\
  Forall (independent (h_points h)) (h_valid h) /\ encloses (h_points h) (h_valid h) /\ closed_surface (h_valid h) /\ goes_on (h_points h) (h_valid h).
Proof. exact ex_oct. Qed.
Example C122_ambi_nonvacuous : let h := oct_hull oct8 in ambi_ready oct_setup h octahedron /\ fresh_hull h /\ order_in_force None oct_setup 1 /\
  h_imag h = None /\ (forall d, In d (h_d h) -> dist_gain d (h_a h) = 1) /\ h_valid h <> [] /\ goes_on (h_points h) (h_valid h) /\
  angles_of octahedron octa_azi octa_zen /\ exact_for sh_real (2 * 1) octa_azi octa_zen (equal_weights (length octahedron)).
Proof. exact ex_oct_ambi. Qed.
