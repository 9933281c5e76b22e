(** Exact convex hulls (C123). *)
From Verif Require Import Base M_decoder S_decoder S_misc P_misc X_cover2 S_cover S_cover2.
Open Scope R_scope.

(** ** C123 *)
Theorem C123_closes_up : forall ps vs, general ps -> surrounded ps -> exact_hull ps vs ->
  vs <> [] /\ Forall (in_range (length ps)) vs /\ Forall (independent ps) vs /\ encloses ps vs /\ closed_surface vs /\ goes_on ps vs.
Proof. exact f_hull. Qed.
Print Assumptions C123_closes_up.
Theorem C123_sorted : forall ps vs, exact_hull ps (sort_vertices vs) <-> exact_hull ps vs.
Proof. exact f_sorted. Qed.
Print Assumptions C123_sorted.
Theorem C123_setup : forall lstsq3 chull ps o order jobs sched src, let h := setup_init chull ps o in
  lstsq3_contract lstsq3 -> norm_order order -> exact_hull (h_points h) (chull (h_points h)) -> general (h_points h) -> surrounded (h_points h) ->
  (forall p, In p (h_points h) -> p <> (0, 0, 0)) -> h_encloses h = h_simplices h ->
  (1 <= jobs)%Z -> (forall i, (i < length src)%nat -> (3 <= count_occ Nat.eq_dec sched i)%nat) -> (forall v, In v src -> v <> (0, 0, 0)) ->
  exists rows, fst (vbap_hull lstsq3 jobs sched src h order None) = Ok rows /\ length rows = length src /\
    forall row, In row rows -> exists j, (j < length (h_points h))%nat /\ nth j row 0 <> 0.
Proof. exact f_setup. Qed.
Print Assumptions C123_setup.
Theorem C123_centred : forall lstsq3 chull ps o order jobs sched src, let h := setup_init chull ps o in
  lstsq3_contract lstsq3 -> norm_order order -> exact_hull (h_points h) (chull (h_points h)) -> general (h_points h) -> surrounded (h_points h) ->
  (forall p, In p (h_points h) -> p <> (0, 0, 0)) -> mean_of (h_points h) (0, 0, 0) ->
  (1 <= jobs)%Z -> (forall i, (i < length src)%nat -> (3 <= count_occ Nat.eq_dec sched i)%nat) -> (forall v, In v src -> v <> (0, 0, 0)) ->
  exists rows, fst (vbap_hull lstsq3 jobs sched src h order None) = Ok rows /\ length rows = length src /\
    forall row, In row rows -> exists j, (j < length (h_points h))%nat /\ nth j row 0 <> 0.
Proof. exact f_centred. Qed.
Print Assumptions C123_centred.
Theorem C123_same_sound : forall chull chull' ps o order src row row', let h := setup_init chull ps o in let h' := setup_init chull' ps o in
  norm_order order -> exact_hull (h_points h) (chull (h_points h)) -> exact_hull (h_points h) (chull' (h_points h)) -> general (h_points h) -> surrounded (h_points h) ->
  (forall p, In p (h_points h) -> p <> (0, 0, 0)) -> h_encloses h = h_simplices h -> h_encloses h' = h_simplices h' -> src <> (0, 0, 0) ->
  panning_row order h (h_valid h) src row -> panning_row order h' (h_valid h') src row' -> (forall x, In x row -> 0 <= x) -> (forall x, In x row' -> 0 <= x) -> row = row'.
Proof. exact f_same_sound. Qed.
Print Assumptions C123_same_sound.
Theorem C123_dropped_refuted : forall lstsq3, lstsq3_contract lstsq3 -> exists chull ps src row, let h := setup_init chull ps None in
  h_points h = ps /\ exact_hull ps (chull ps) /\ general ps /\ surrounded ps /\ (forall p, In p ps -> p <> (0, 0, 0)) /\ src <> (0, 0, 0) /\
  fst (vbap_hull lstsq3 1 [] [src] h (POrd 2) None) = Ok [row] /\ forall j, nth j row 0 = 0.
Proof. exact f_dropped_refuted. Qed.
Print Assumptions C123_dropped_refuted.
Example C123_nonvacuous : let h := setup_init (fun _ => tetra) tet0 None in h_points h = tet0 /\ exact_hull (h_points h) tetra /\ general (h_points h) /\ surrounded (h_points h) /\
  (forall p, In p (h_points h) -> p <> (0, 0, 0)) /\ mean_of (h_points h) (0, 0, 0) /\ h_encloses h = h_simplices h.
Proof. exact ex_tet. Qed.
