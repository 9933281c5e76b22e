(** Properties of io.py, part 3: SDM files and SOFA sets (C79, C80). *)
From Coq Require Import String Lra Lia.
From Verif Require Import Base M_utils M_sig M_process M_sph M_io M_io2 S_sph S_grids S_io S_io2 S_lsq P_io8 X_io6.
Open Scope R_scope.


(** ** C79 *)

Theorem C79_loaded : forall m h azi zen fs init,
  stored (k_href m) (k_p m) h -> stored (k_sazi m) (k_phi m) azi -> stored (k_szen m) (k_theta m) zen -> k_sfs m = Some fs ->
  exists a z, load_sdm m init = Ok (squeeze h, a, z, py_int fs) /\ shape a = shape (squeeze azi) /\ shape z = shape (squeeze zen) /\
    (init = true -> filled 0 (data azi) (data a) /\ filled (PI / 2) (data zen) (data z)) /\ (init = false -> data a = data azi /\ data z = data zen).
Proof. exact sdm_ok. Qed.
Print Assumptions C79_loaded.
Theorem C79_missing_key : forall m init,
  (k_href m = None /\ k_p m = None) \/ (k_sazi m = None /\ k_phi m = None) \/ (k_szen m = None /\ k_theta m = None) \/ k_sfs m = None ->
  load_sdm m init = Err KeyError.
Proof. exact sdm_missing. Qed.
Print Assumptions C79_missing_key.
Theorem C79_no_nan : forall m init r,
  load_sdm m init = Ok r -> init = true -> let '(_, a, z, _) := r in ~ In None (data a) /\ ~ In None (data z).
Proof. exact f_sdm_clean. Qed.
Print Assumptions C79_no_nan.
Example C79_nonvacuous : exists h azi zen, stored (k_href sdm_example) (k_p sdm_example) h /\ stored (k_sazi sdm_example) (k_phi sdm_example) azi /\ stored (k_szen sdm_example) (k_theta sdm_example) zen /\
  k_sfs sdm_example = Some 48000 /\ In None (data azi) /\ In None (data zen).
Proof. exact ex_sdm_file. Qed.

(** ** C80 *)

Theorem C80_loaded : forall s m t ir pos rate,
  sofa_file s m t ir pos rate -> (2 <= m)%nat -> t <> 1%nat -> length ir = (m * 2 * t)%nat -> length pos = (m * 3)%nat ->
  (spread m pos < 1 / 10 /\ (forall g, (g < m)%nat -> PI / 2 - sofa_ele pos g * (PI / 180) > - (10 / 1000000)) ->
   exists h, load_sofa_hrirs s = Ok h /\ h_fs h = py_int rate /\ num_grid_points h = m /\ h_taps h = t /\ length (h_left h) = m /\ length (h_right h) = m /\ length (h_azi h) = m /\ length (h_zen h) = m /\
     (forall g, (g < m)%nat -> nth g (h_azi h) 0 = sofa_azi pos g * (PI / 180) /\ nth g (h_zen h) 0 = PI / 2 - sofa_ele pos g * (PI / 180)) /\
     forall g i, (g < m)%nat -> (i < t)%nat -> nth i (nth g (h_left h) []) 0 = nth (g * 2 * t + i) ir 0 /\ nth i (nth g (h_right h) []) 0 = nth ((g * 2 + 1) * t + i) ir 0) /\
  (~ (spread m pos < 1 / 10 /\ (forall g, (g < m)%nat -> PI / 2 - sofa_ele pos g * (PI / 180) > - (10 / 1000000))) -> load_sofa_hrirs s = Err AssertionError).
Proof. exact sofa_ok. Qed.
Print Assumptions C80_loaded.
Theorem C80_one_measurement : forall s t ir pos rate,
  sofa_file s 1 t ir pos rate -> load_sofa_hrirs s = Err IndexError.
Proof. exact sofa_single. Qed.
Print Assumptions C80_one_measurement.
Theorem C80_missing_key : forall s,
  sf_rate s = None \/ sf_ir s = None \/ sf_pos s = None -> load_sofa_hrirs s = Err KeyError.
Proof. exact sofa_missing. Qed.
Print Assumptions C80_missing_key.
Theorem C80_to_sh : forall pinv s h N,
  load_sofa_hrirs s = Ok h ->
  exists Y, sh_matrix N (h_azi h) (h_zen h) = Ok Y /\ nr Y = length (h_left h) /\ nc Y = ((N + 1) ^ 2)%nat /\ (penrose Y (pinv Y) ->
  exists l r, sofa_to_sh pinv s N = Ok (l, r, h_fs h) /\ nr l = ((N + 1) ^ 2)%nat /\ nr r = ((N + 1) ^ 2)%nat /\ nc l = h_taps h /\ nc r = h_taps h /\
    forall i, (i < h_taps h)%nat -> best_fit Y (fun g => nth i (nth g (h_left h) []) 0) (fun k => ent l k i) /\ best_fit Y (fun g => nth i (nth g (h_right h) []) 0) (fun k => ent r k i) /\
      (left_invertible Y -> forall v, ((forall g, (g < nr Y)%nat -> nth i (nth g (h_left h) []) 0 = rsum (nc Y) (fun k => ent Y g k * v k)) -> forall k, (k < nc Y)%nat -> ent l k i = v k) /\
        ((forall g, (g < nr Y)%nat -> nth i (nth g (h_right h) []) 0 = rsum (nc Y) (fun k => ent Y g k * v k)) -> forall k, (k < nc Y)%nat -> ent r k i = v k))).
Proof. exact f_sofa_sh. Qed.
Print Assumptions C80_to_sh.
Theorem C80_elevation_refuted : exists s h z, load_sofa_hrirs s = Ok h /\ In z (h_zen h) /\ z > PI.
Proof. exact ex_sofa_below. Qed.
Print Assumptions C80_elevation_refuted.
Example C80_nonvacuous : exists m t ir pos, sofa_file (sofa_example (-90)) m t ir pos 48000 /\ (2 <= m)%nat /\ t <> 1%nat /\ length ir = (m * 2 * t)%nat /\ length pos = (m * 3)%nat /\
  spread m pos < 1 / 10 /\ (forall g, (g < m)%nat -> PI / 2 - sofa_ele pos g * (PI / 180) > - (10 / 1000000)).
Proof. exact ex_sofa. Qed.
Example C80_nonvacuous_sh : exists h pinv Y, load_sofa_hrirs (sofa_example (-90)) = Ok h /\ sh_matrix 1 (h_azi h) (h_zen h) = Ok Y /\ penrose Y (pinv Y) /\ left_invertible Y.
Proof. exact ex_sofa_sh. Qed.
