(** Intensity panning on layouts around the listener (C126). *)
From Verif Require Import Base M_utils M_sph M_decoder M_decoder2 M_plot S_decoder S_decoder2 S_plot S_retain S_misc S_cover S_cover2 X_dec1 X_cover X_vbip.
Open Scope R_scope.

(** ** C126 *)
Theorem C126_all_directions : forall lstsq3 o jobs sched src s vs, let h := s_hull s in
  lstsq3_contract lstsq3 -> norm_order o -> h_vbase h = None -> ls_ok h ->
  Forall (in_range (length (h_points h))) (in_force h vs) -> Forall (independent (h_points h)) (in_force h vs) ->
  (1 <= jobs)%Z -> (forall i, (i < length src)%nat -> (3 <= count_occ Nat.eq_dec sched i)%nat) ->
  in_force h vs <> [] -> goes_on (h_points h) (in_force h vs) -> (forall v, In v src -> v <> (0, 0, 0)) ->
  exists gains rows s', vbap lstsq3 jobs sched src s (POrd 2) vs false = (Ok gains, s') /\ vbip lstsq3 jobs sched src s o vs false = (Ok rows, s') /\
    length rows = length src /\ forall i, (i < length src)%nat -> let row := nth i rows [] in
      length row = length (h_points h) /\ (forall x, In x row -> 0 <= x) /\ unit_norm o row /\
      ((forall x, In x (nth i gains []) -> 0 <= x) -> exists k, 0 < k /\ intensity h row = scal3 k (nth i src (0, 0, 0))).
Proof. exact f_vbip_all. Qed.
Print Assumptions C126_all_directions.
Theorem C126_continuous : forall lstsq3 o s vs src e, let h := s_hull s in
  lstsq3_contract lstsq3 -> norm_order o -> h_vbase h = None -> ls_ok h ->
  Forall (in_range (length (h_points h))) (in_force h vs) -> Forall (independent (h_points h)) (in_force h vs) ->
  in_force h vs <> [] -> encloses (h_points h) (in_force h vs) -> closed_surface (in_force h vs) -> src <> (0, 0, 0) -> 0 < e ->
  exists d, 0 < d /\ forall jobs sched srcs gains rows s' s'' i i', (1 <= jobs)%Z -> (forall k, (k < length srcs)%nat -> (3 <= count_occ Nat.eq_dec sched k)%nat) ->
    vbap lstsq3 jobs sched srcs s (POrd 2) vs false = (Ok gains, s') -> vbip lstsq3 jobs sched srcs s o vs false = (Ok rows, s'') ->
    (i < length srcs)%nat -> (i' < length srcs)%nat ->
    nth i srcs (0, 0, 0) = src -> norm3 (sub3 (nth i' srcs (0, 0, 0)) src) < d ->
    (forall x, In x (nth i gains []) -> 0 <= x) -> (forall x, In x (nth i' gains []) -> 0 <= x) ->
    forall j, Rabs (nth j (nth i' rows []) 0 - nth j (nth i rows []) 0) < e.
Proof. exact f_vbip_continuous. Qed.
Print Assumptions C126_continuous.
Theorem C126_performance : forall s lstsq3 pinv svd sa se,
  ls_ok (s_hull s) -> lstsq3_contract lstsq3 -> h_vbase (s_hull s) = None ->
  Forall (in_range (length (h_points (s_hull s)))) (h_valid (s_hull s)) -> Forall (independent (h_points (s_hull s))) (h_valid (s_hull s)) ->
  h_valid (s_hull s) <> [] -> goes_on (h_points (s_hull s)) (h_valid (s_hull s)) ->
  exists ms s', decoder_performance lstsq3 pinv svd s RVbip sa se None = (Ok (Some ms), s') /\ length ms = length (perf_grid sa se) /\
  forall i d, (i < length (perf_grid sa se))%nat ->
    let dir := grid_dir (nth i (perf_grid sa se) (0, 0)) in let h := s_hull s in
    pm_energy (nth i ms d) = 1 /\
    exists full row, panning_row (POrd 2) h (h_valid h) dir full /\ roots_of full row /\ nth i ms d = perf_measure h dir row /\
      ((forall p, In p (h_points h) -> norm3 p = 1) -> (forall j, (j < length full)%nat -> 0 <= nth j full 0) -> 1 / 100000000000000 <= norm3 (energy_vector h row) ->
       pm_error (nth i ms d) = Some 0).
Proof. exact f_vbip_performance. Qed.
Print Assumptions C126_performance.
Theorem C126_setup : forall lstsq3 chull ps q o jobs sched src s, let h := setup_init chull ps q in
  lstsq3_contract lstsq3 -> norm_order o -> exact_hull (h_points h) (chull (h_points h)) -> general (h_points h) -> surrounded (h_points h) ->
  (forall p, In p (h_points h) -> p <> (0, 0, 0)) -> h_encloses h = h_simplices h -> s_hull s = h ->
  (1 <= jobs)%Z -> (forall i, (i < length src)%nat -> (3 <= count_occ Nat.eq_dec sched i)%nat) -> (forall v, In v src -> v <> (0, 0, 0)) ->
  exists gains rows s', vbap lstsq3 jobs sched src s (POrd 2) None false = (Ok gains, s') /\ vbip lstsq3 jobs sched src s o None false = (Ok rows, s') /\
    length rows = length src /\ forall i, (i < length src)%nat -> let row := nth i rows [] in
      length row = length (h_points h) /\ (forall x, In x row -> 0 <= x) /\ unit_norm o row /\
      ((forall x, In x (nth i gains []) -> 0 <= x) -> exists k, 0 < k /\ intensity h row = scal3 k (nth i src (0, 0, 0))).
Proof. exact f_vbip_setup. Qed.
Print Assumptions C126_setup.
Theorem C126_continuous_refuted : exists s src e, let h := s_hull s in h_vbase h = None /\ ls_ok h /\ Forall (in_range (length (h_points h))) (h_valid h) /\
  Forall (independent (h_points h)) (h_valid h) /\ h_valid h <> [] /\ encloses (h_points h) (h_valid h) /\ closed_surface (h_valid h) /\ src <> (0, 0, 0) /\ 3 / 1000 <= e /\
  forall lstsq3 d, lstsq3_contract lstsq3 -> 0 < d -> exists src' row row' s', norm3 (sub3 src' src) < d /\
    vbip lstsq3 1 [] [src; src'] s (POrd 2) None false = (Ok [row; row'], s') /\ e <= Rabs (nth 1 row' 0 - nth 1 row 0).
Proof. exact f_vbip_continuous_refuted. Qed.
Print Assumptions C126_continuous_refuted.
Example C126_nonvacuous : let h := s_hull oct_s in lstsq3_contract adj_lstsq /\ h_vbase h = None /\ ls_ok h /\
  Forall (in_range (length (h_points h))) (in_force h None) /\ Forall (independent (h_points h)) (in_force h None) /\ in_force h None <> [] /\
  encloses (h_points h) (in_force h None) /\ closed_surface (in_force h None) /\ goes_on (h_points h) (in_force h None) /\
  exists rows s', vbip adj_lstsq 1 [0; 0; 0; 1; 1; 1]%nat [(1, 1, 1); (0, -1, 0)] oct_s PInf None false = (Ok rows, s') /\ length rows = 2%nat /\
    forall row, In row rows -> length row = 6%nat /\ unit_norm PInf row.
Proof. exact ex_vbip. Qed.
