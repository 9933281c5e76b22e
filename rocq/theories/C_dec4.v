(** Properties of panning with imaginary loudspeakers and of VBIP (C111, C47, C91). *)
From Verif Require Import Base BaseFacts M_utils M_sph0 M_sig M_process M_sph M_grids M_decoder M_decoder2 M_process2 M_plot
  S_utils S_sph S_grids S_decoder S_decoder2 S_plot S_retain P_dec1 X_dec1 X_dec2 P_grids3 X_sph X_plot P_retain P_retain2 X_retain.
Open Scope R_scope.

(** ** C111 *)
Theorem C111_rows : forall lstsq3 o jobs sched src s h idx reals,
  lstsq3_contract lstsq3 -> norm_order o ->
  s_ambi s = Some h -> h_imag h = Some idx -> fresh_hull h -> real_ls (Some idx) (length (h_points h)) reals ->
  (1 <= jobs)%Z -> fair (length src) sched ->
  exists rows s', vbap lstsq3 jobs sched src s o None true = (Ok rows, s') /\
    Forall2 (fun v r => exists full, panning_row o h (h_valid h) v full /\ only reals full r) src rows /\
    s_hull s' = s_hull s /\ s_kernel s' = s_kernel s /\ s_order s' = s_order s /\
    exists h', s_ambi s' = Some h' /\ h_points h' = h_points h /\ h_valid h' = h_valid h /\ h_imag h' = Some idx.
Proof. exact retain_rows. Qed.
Print Assumptions C111_rows.
Theorem C111_errors : forall lstsq3 jobs sched src s o,
  (forall vs, vbap lstsq3 jobs sched src s o (Some vs) true = (Err AssertionError, s)) /\
  (s_ambi s = None -> vbap lstsq3 jobs sched src s o None true = (Err ValueError, s)) /\
  (forall h, s_ambi s = Some h -> h_imag h = None -> vbap lstsq3 jobs sched src s o None true = (Err ValueError, s)).
Proof. exact retain_errors. Qed.
Print Assumptions C111_errors.
Theorem C111_energy : forall h idx reals v full row,
  fresh_hull h -> (forall d, In d (h_d h) -> dist_gain d (h_a h) = 1) ->
  real_ls (Some idx) (length (h_points h)) reals -> panning_row (POrd 2) h (h_valid h) v full -> only reals full row ->
  (exists f, In f (h_valid h) /\ inside_cone (h_points h) f v) ->
  total_energy row + energy_on idx (length (h_points h)) full = 1 /\ total_energy row <= 1.
Proof. exact retain_energy. Qed.
Print Assumptions C111_energy.
Theorem C111_at_imaginary : forall o h idx reals i k full row,
  fresh_hull h -> real_ls (Some idx) (length (h_points h)) reals -> In i idx ->
  let v := scal3 k (nth i (h_points h) (0, 0, 0)) in
  (forall f g, In f (h_valid h) -> pans o (h_points h) f v g -> In i (fv f)) ->
  panning_row o h (h_valid h) v full -> only reals full row -> forall x, In x row -> x = 0.
Proof. exact at_imaginary. Qed.
Print Assumptions C111_at_imaginary.
Theorem C111_after_setup : forall chull lstsq3 nd s im order Nk s1 o jobs sched src,
  lstsq3_contract lstsq3 -> norm_order o ->
  ambisonics_setup chull lstsq3 nd s true im order (Some Nk) = (Ok tt, s1) ->
  (forall h, s_ambi s1 = Some h -> Forall (in_range (length (h_points h))) (h_valid h) /\ Forall (independent (h_points h)) (h_valid h)) ->
  (1 <= jobs)%Z -> fair (length src) sched ->
  exists h rows s2, s_ambi s1 = Some h /\ vbap lstsq3 jobs sched src s1 o None true = (Ok rows, s2) /\ s_hull s2 = s_hull s /\
    Forall2 (fun v r => exists full, panning_row o h (h_valid h) v full /\ r = firstn (length (h_points (s_hull s))) full) src rows.
Proof. exact retain_after. Qed.
Print Assumptions C111_after_setup.
Theorem C111_vbip_silent_refuted : exists lstsq3 s h v row s', lstsq3_contract lstsq3 /\ s_ambi s = Some h /\ fresh_hull h /\ (exists idx, h_imag h = Some idx) /\
  (exists f, In f (h_valid h) /\ inside_cone (h_points h) f v) /\
  vbip lstsq3 1 [] [v] s (POrd 2) None true = (Ok [row], s') /\ length row = 5%nat /\ forall x, In x row -> x = 0.
Proof. exact vbip_silent. Qed.
Print Assumptions C111_vbip_silent_refuted.
Example C111_nonvacuous : fresh_hull im_hull /\ real_ls (Some [5%nat]) (length (h_points im_hull)) [0; 1; 2; 3; 4]%nat /\ s_ambi im_setup = Some im_hull /\ h_imag im_hull = Some [5%nat] /\
  (forall d, In d (h_d im_hull) -> dist_gain d (h_a im_hull) = 1) /\ (exists f, In f (h_valid im_hull) /\ inside_cone (h_points im_hull) f (0, 0, -1)) /\
  (forall f g, In f (h_valid im_hull) -> pans (POrd 2) (h_points im_hull) f (scal3 1 (nth 5 (h_points im_hull) (0, 0, 0))) g -> In 5%nat (fv f)).
Proof. exact ex_retain. Qed.
Example C111_after_nonvacuous : let r := ambisonics_setup (fun _ => octa_faces) adj_lstsq (fun _ => octahedron) octa_setup true (Some [(0, 0, -1)]) (Some 1%nat) (Some 1%nat) in
  fst r = Ok tt /\ forall h, s_ambi (snd r) = Some h -> Forall (in_range (length (h_points h))) (h_valid h) /\ Forall (independent (h_points h)) (h_valid h).
Proof. exact ex_after. Qed.
(** ** C47 *)
Theorem C47_values : forall lstsq3 jobs sched src s o vs ro rows s',
  norm_order o ->
  vbip lstsq3 jobs sched src s o vs ro = (Ok rows, s') ->
  exists gains, vbap lstsq3 jobs sched src s (POrd 2) vs ro = (Ok gains, s') /\ Forall2 roots_of gains rows.
Proof. exact vbip_values. Qed.
Print Assumptions C47_values.
Theorem C47_intensity : forall o h vs v full r,
  norm_order o -> hull_wf h -> Forall (in_range (length (h_points h))) vs -> Forall (independent (h_points h)) vs ->
  (forall d, In d (h_d h) -> 0 < d) ->
  panning_row o h vs v full -> (forall j, (j < length full)%nat -> 0 <= nth j full 0) -> (exists f, In f vs /\ inside_cone (h_points h) f v) ->
  roots_of full r -> exists k, 0 < k /\ intensity h r = scal3 k v.
Proof. exact vbip_intensity. Qed.
Print Assumptions C47_intensity.
Theorem C47_unequal_distances_refuted : exists lstsq3 s v row s', lstsq3_contract lstsq3 /\ ls_ok (s_hull s) /\ fresh_hull (s_hull s) /\
  (exists f, In f (h_valid (s_hull s)) /\ inside_cone (h_points (s_hull s)) f v) /\
  vbip lstsq3 1 [] [v] s (POrd 2) None false = (Ok [row], s') /\ unit_norm (POrd 2) row /\
  ~ exists k, energy_vector (s_hull s) row = scal3 k v.
Proof. exact vbip_far. Qed.
Print Assumptions C47_unequal_distances_refuted.
Example C47_intensity_nonvacuous : let h := im_hull in hull_wf h /\ Forall (in_range (length (h_points h))) (h_valid h) /\ Forall (independent (h_points h)) (h_valid h) /\
  (forall d, In d (h_d h) -> 0 < d) /\ panning_row (POrd 2) h (h_valid h) (0, 0, -1) [0; 0; 0; 0; 0; 1] /\
  (exists f, In f (h_valid h) /\ inside_cone (h_points h) f (0, 0, -1)) /\ roots_of [0; 0; 0; 0; 0; 1] [0; 0; 0; 0; 0; 1].
Proof. exact ex_intensity. Qed.
(** ** C91 *)
Theorem C91_vbip : forall s, ls_ok (s_hull s) -> forall lstsq3 pinv svd, lstsq3_contract lstsq3 -> h_vbase (s_hull s) = None ->
  Forall (in_range (length (h_points (s_hull s)))) (h_valid (s_hull s)) -> Forall (independent (h_points (s_hull s))) (h_valid (s_hull s)) ->
  forall sa se, exists ms s', decoder_performance lstsq3 pinv svd s RVbip sa se None = (Ok (Some ms), s') /\ length ms = length (perf_grid sa se) /\
  forall i d, (i < length (perf_grid sa se))%nat ->
    let h := s_hull s in
    let dir := grid_dir (nth i (perf_grid sa se) (0, 0)) in
    exists full row, panning_row (POrd 2) h (h_valid h) dir full /\ roots_of full row /\ nth i ms d = perf_measure h dir row /\
      (pm_energy (nth i ms d) = 1 \/ pm_energy (nth i ms d) = 0 /\ forall f g, In f (h_valid h) -> ~ pans (POrd 2) (h_points h) f dir g) /\
      ((forall p, In p (h_points h) -> norm3 p = 1) -> (forall j, (j < length full)%nat -> 0 <= nth j full 0) ->
       (exists f, In f (h_valid h) /\ inside_cone (h_points h) f dir) -> 1 / 100000000000000 <= norm3 (energy_vector h row) ->
       pm_error (nth i ms d) = Some 0).
Proof. exact vbip_perf. Qed.
Print Assumptions C91_vbip.
