(** Panning gains move continuously (C124). *)
From Verif Require Import Base M_decoder S_decoder S_misc X_cover X_cover3 S_cover S_cover2.
Open Scope R_scope.

(** ** C124 *)
Theorem C124_continuous : forall lstsq3 o h vs src e,
  lstsq3_contract lstsq3 -> norm_order o -> h_vbase h = None -> hull_wf h -> (forall d, In d (h_d h) -> 0 < d) ->
  Forall (in_range (length (h_points h))) (in_force h vs) -> Forall (independent (h_points h)) (in_force h vs) ->
  in_force h vs <> [] -> encloses (h_points h) (in_force h vs) -> closed_surface (in_force h vs) -> src <> (0, 0, 0) -> 0 < e ->
  exists d, 0 < d /\ forall jobs sched srcs rows i i', (1 <= jobs)%Z -> (forall k, (k < length srcs)%nat -> (3 <= count_occ Nat.eq_dec sched k)%nat) ->
    fst (vbap_hull lstsq3 jobs sched srcs h o vs) = Ok rows -> (i < length srcs)%nat -> (i' < length srcs)%nat ->
    nth i srcs (0, 0, 0) = src -> norm3 (sub3 (nth i' srcs (0, 0, 0)) src) < d ->
    (forall x, In x (nth i rows []) -> 0 <= x) -> (forall x, In x (nth i' rows []) -> 0 <= x) ->
    forall j, Rabs (nth j (nth i' rows []) 0 - nth j (nth i rows []) 0) < e.
Proof. exact f_continuous. Qed.
Print Assumptions C124_continuous.
Theorem C124_setup : forall lstsq3 chull ps q o src e, let h := setup_init chull ps q in
  lstsq3_contract lstsq3 -> norm_order o -> exact_hull (h_points h) (chull (h_points h)) -> general (h_points h) -> surrounded (h_points h) ->
  (forall p, In p (h_points h) -> p <> (0, 0, 0)) -> h_encloses h = h_simplices h -> src <> (0, 0, 0) -> 0 < e ->
  exists d, 0 < d /\ forall jobs sched srcs rows i i', (1 <= jobs)%Z -> (forall k, (k < length srcs)%nat -> (3 <= count_occ Nat.eq_dec sched k)%nat) ->
    fst (vbap_hull lstsq3 jobs sched srcs h o None) = Ok rows -> (i < length srcs)%nat -> (i' < length srcs)%nat ->
    nth i srcs (0, 0, 0) = src -> norm3 (sub3 (nth i' srcs (0, 0, 0)) src) < d ->
    (forall x, In x (nth i rows []) -> 0 <= x) -> (forall x, In x (nth i' rows []) -> 0 <= x) ->
    forall j, Rabs (nth j (nth i' rows []) 0 - nth j (nth i rows []) 0) < e.
Proof. exact f_continuous_setup. Qed.
Print Assumptions C124_setup.
Theorem C124_continuous_refuted : exists h src e, h_vbase h = None /\ hull_wf h /\ (forall d, In d (h_d h) -> 0 < d) /\ Forall (in_range (length (h_points h))) (h_valid h) /\
  Forall (independent (h_points h)) (h_valid h) /\ h_valid h <> [] /\ encloses (h_points h) (h_valid h) /\ closed_surface (h_valid h) /\ src <> (0, 0, 0) /\ 0 < e /\
  forall lstsq3 d, lstsq3_contract lstsq3 -> 0 < d -> exists src' row row', norm3 (sub3 src' src) < d /\
    fst (vbap_hull lstsq3 1 [] [src; src'] h (POrd 2) None) = Ok [row; row'] /\ e <= Rabs (nth 0 row' 0 - nth 0 row 0).
Proof. exact f_continuous_refuted. Qed.
Print Assumptions C124_continuous_refuted.
Example C124_nonvacuous : let h := oct_hull oct8 in hull_wf h /\ (forall d, In d (h_d h) -> 0 < d) /\ encloses (h_points h) (h_valid h) /\ closed_surface (h_valid h) /\
  panning_row (POrd 2) h (h_valid h) (1, 1, 1) [third; 0; third; 0; third; 0] /\ forall x, In x [third; 0; third; 0; third; 0] -> 0 <= x.
Proof. exact ex_continuous. Qed.
