(** Properties of zero-pole diagrams and filter stability, of diagrams of several sets of
    coefficients, of normals and of test_diff (C99 - C101). *)
From Coq Require Import String.
From Verif Require Import Base M_utils M_sig M_process M_sph0 M_sph M_grids M_decoder M_decoder2 M_decoder3 M_parsa3 M_decoder4 M_parsa2 M_io M_process2 M_plot M_io3 M_process3 S_process3 M_zp S_zp P_zp2 P_zp3 X_zp M_plot2 S_plot2 P_plot8 X_plot2.
Open Scope R_scope.
Local Notation length := List.length.


(** ** C99 *)

Theorem C99_roots : forall eig k c t, c <> 0 -> solves_for eig (repeat 0 k ++ c :: t) ->
  length (np_roots eig (repeat 0 k ++ c :: t)) = length t /\ forall z, polynomial (repeat 0 k ++ c :: t) z = cscal c (product (np_roots eig (repeat 0 k ++ c :: t)) z).
Proof. exact f_roots. Qed.
Print Assumptions C99_roots.
Theorem C99_no_roots : forall eig n, np_roots eig (repeat 0 n) = [] /\ forall z, polynomial (repeat 0 n) z = (0, 0).
Proof. exact f_no_roots. Qed.
Print Assumptions C99_no_roots.
Theorem C99_transfer_function : forall eig b a z w (zPlane : bool), solves_for eig b -> solves_for eig a -> (exists c, In c b /\ c <> 0) -> (exists c, In c a /\ c <> 0) -> cmul z w = (1, 0) ->
  (csum (length b) (fun k => cscal (nth k b 0) (cpow w k)) = (0, 0) <-> In z (zp_zeros (zeropole eig b a zPlane))) /\
  (csum (length a) (fun k => cscal (nth k a 0) (cpow w k)) = (0, 0) <-> In z (zp_poles (zeropole eig b a zPlane))).
Proof. exact f_transfer. Qed.
Print Assumptions C99_transfer_function.
Theorem C99_decay : forall eig b a rho, solves_for eig a -> 0 < rho -> inside rho (zp_poles (zeropole eig b a true)) ->
  exists M, 0 <= M /\ forall N h, (1 <= N)%nat -> lfilter b a (impulse N) = Ok h -> forall n, (n < N)%nat -> Rabs (nth n h 0) <= M * rho ^ n.
Proof. exact f_decay. Qed.
Print Assumptions C99_decay.
Theorem C99_poles_inside_stable : forall eig b a, solves_for eig a -> inside 1 (zp_poles (zeropole eig b a true)) -> stable b a.
Proof. exact f_stable. Qed.
Print Assumptions C99_poles_inside_stable.
Theorem C99_stable_pole_inside : forall eig b a p, solves_for eig a -> nth 0 a 0 <> 0 -> b <> [] -> stable b a -> In p (zp_poles (zeropole eig b a true)) -> polynomial b p <> (0, 0) -> cabs p < 1.
Proof. exact f_pole_inside. Qed.
Print Assumptions C99_stable_pole_inside.
Theorem C99_stable_iff : forall eig b a, solves_for eig a -> nth 0 a 0 <> 0 -> b <> [] -> (forall p, In p (zp_poles (zeropole eig b a true)) -> polynomial b p <> (0, 0)) ->
  (stable b a <-> inside 1 (zp_poles (zeropole eig b a true))).
Proof. exact f_stable_iff. Qed.
Print Assumptions C99_stable_iff.
Theorem C99_origin_refuted : exists b a, zp_zeros (zeropole eig2 b a true) = [] /\ solves_for eig2 b /\ solves_for eig2 a /\
  forall z w, cmul z w = (1, 0) -> cabs z <= 1 / 4 ->
    cabs (csum (length b) (fun k => cscal (nth k b 0) (cpow w k))) <= 4 * cabs z * cabs (csum (length a) (fun k => cscal (nth k a 0) (cpow w k))).
Proof. exact f_origin_refuted. Qed.
Print Assumptions C99_origin_refuted.
Example C99_nonvacuous : solves_for eig2 [1; -1/2] /\ zp_poles (zeropole eig2 [1] [1; -1/2] true) = [(1/2, 0)] /\ polynomial [1] (1/2, 0) <> (0, 0) /\ stable [1] [1; -1/2] /\ ~ stable [1] [1; -2].
Proof. exact ex_stable. Qed.
Example C99_transfer_nonvacuous : solves_for eig2 [2; 1] /\ solves_for eig2 [1; -1/2] /\ cmul (-1/2, 0) (-2, 0) = (1, 0) /\ np_roots eig2 [2; 1] = [(-1/2, 0)].
Proof. exact ex_transfer. Qed.
Example C99_roots_nonvacuous : solves_for eig2 (repeat 0 0 ++ 2 :: [1]) /\ (2 : R) <> 0.
Proof. exact ex_roots. Qed.

(** ** C100 *)

Theorem C100_overlay : forall Fs t sa se, 0 < sa -> 0 < se -> (forall F, In F Fs -> exists N, of_order N F) -> t <> Some ShUnknown ->
  exists figs, sh_coeffs_overlay Fs t sa se = Ok figs /\ length figs = length Fs /\
    forall i N, (i < length Fs)%nat -> of_order N (nth i Fs (CoefR [])) ->
      surface (match t with Some k => k | None => coef_kind (nth 0 Fs (CoefR [])) end) N (nth i Fs (CoefR [])) sa se (fst (nth i figs ([], 0%nat))) /\ snd (nth i figs ([], 0%nat)) = Nat.min i 8.
Proof. exact f_overlay. Qed.
Print Assumptions C100_overlay.
Theorem C100_overlay_colours : forall Fs t sa se figs i j, 0 < sa -> 0 < se -> (forall F, In F Fs -> exists N, of_order N F) -> t <> Some ShUnknown -> sh_coeffs_overlay Fs t sa se = Ok figs ->
  (i < length Fs)%nat -> (j < length Fs)%nat -> (length Fs <= 9)%nat -> i <> j -> snd (nth i figs ([], 0%nat)) <> snd (nth j figs ([], 0%nat)).
Proof. exact f_overlay_colours. Qed.
Print Assumptions C100_overlay_colours.
Theorem C100_complex_balloon : forall l N sa se, 0 < sa -> 0 < se -> length l = ((N + 1) ^ 2)%nat ->
  exists pts, sh_coeffs_c l sa se = Ok pts /\ surface ShComplex N (CoefC l) sa se (map fst pts) /\
    forall i, (i < length pts)%nat -> let '(azi, zen) := nth i (balloon_grid sa se) (0, 0) in snd (nth i pts ((0, 0, 0), 0)) = angle (function_value ShComplex N (CoefC l) azi zen).
Proof. exact f_balloon_c. Qed.
Print Assumptions C100_complex_balloon.
Theorem C100_subplot : forall Fs titles fig_given axs sa se,
  let shown := match axs with Some m => m | None => length Fs end in
  0 < sa -> 0 < se -> (1 <= length Fs)%nat -> (axs = None -> (2 <= length Fs)%nat) -> (shown <= length Fs)%nat ->
  (forall l, titles = Some l -> (shown <= length l)%nat) ->
  (forall F, In F Fs -> exists N, of_order N F) ->
  exists figs, sh_coeffs_subplot Fs titles fig_given axs sa se = Ok figs /\ length figs = shown /\
    forall i, (i < shown)%nat -> let F := nth i Fs (CoefR []) in
      sh_coeffs_any F sa se = Ok (fst (nth i figs ([], None))) /\
      snd (nth i figs ([], None)) = option_map (fun l => nth i l ""%string) titles /\
      forall N, of_order N F -> surface (coef_kind F) N F sa se (map fst (fst (nth i figs ([], None)))).
Proof. exact f_subplot. Qed.
Print Assumptions C100_subplot.
Theorem C100_subplot_axes : forall Fs titles fig_given m sa se, 0 < sa -> 0 < se -> (1 <= length Fs)%nat -> (length Fs < m)%nat ->
  (forall F, In F Fs -> exists N, of_order N F) -> (forall l, titles = Some l -> (length Fs <= length l)%nat) ->
  sh_coeffs_subplot Fs titles fig_given (Some m) sa se = Err IndexError.
Proof. exact f_subplot_index. Qed.
Print Assumptions C100_subplot_axes.
Theorem C100_subplot_empty : forall titles fig_given axs sa se, fig_given = false \/ axs = None ->
  exists e, sh_coeffs_subplot [] titles fig_given axs sa se = Err e.
Proof. exact f_subplot_empty. Qed.
Print Assumptions C100_subplot_empty.
Theorem C100_subplot_one_refuted : ~ (forall Fs titles fig_given axs sa se, 0 < sa -> 0 < se -> (1 <= length Fs)%nat -> titles = None -> axs = None -> (forall F, In F Fs -> exists N, of_order N F) ->
  exists figs, sh_coeffs_subplot Fs titles fig_given axs sa se = Ok figs).
Proof. exact f_subplot_one_refuted. Qed.
Print Assumptions C100_subplot_one_refuted.
Theorem C100_mixed_overlay_refuted : ~ (forall Fs figs sa se i pts, 0 < sa -> 0 < se -> (forall F, In F Fs -> exists N, of_order N F) ->
  sh_coeffs_overlay Fs None sa se = Ok figs -> (i < length Fs)%nat -> sh_coeffs_any (nth i Fs (CoefR [])) sa se = Ok pts -> fst (nth i figs ([], 0%nat)) = map fst pts).
Proof. exact f_overlay_mixed_refuted. Qed.
Print Assumptions C100_mixed_overlay_refuted.
Theorem C100_colours_refuted : ~ (forall Fs t sa se figs i j, 0 < sa -> 0 < se -> (forall F, In F Fs -> exists N, of_order N F) -> sh_coeffs_overlay Fs t sa se = Ok figs ->
  (i < length Fs)%nat -> (j < length Fs)%nat -> i <> j -> snd (nth i figs ([], 0%nat)) <> snd (nth j figs ([], 0%nat))).
Proof. exact f_overlay_colours_refuted. Qed.
Print Assumptions C100_colours_refuted.
Example C100_nonvacuous : exists figs, sh_coeffs_subplot mixed_sets (Some ["first"; "second"]%string) false None 360 180 = Ok figs /\ length figs = 2%nat /\
  snd (nth 1 figs ([], None)) = Some "second"%string /\ fst (fst (nth 0 (fst (nth 0 figs ([], None))) ((0, 0, 0), 0))) <> (0, 0).
Proof. exact ex_subplot. Qed.
Example C100_overlay_nonvacuous : exists figs, sh_coeffs_overlay mixed_sets (Some ShComplex) 360 180 = Ok figs /\ length figs = 2%nat /\ surface ShComplex 1 (nth 1 mixed_sets (CoefR [])) 360 180 (fst (nth 1 figs ([], 0%nat))).
Proof. exact ex_overlay. Qed.

(** ** C101 *)

Theorem C101_difference : forall v1 v2 msg axis lim vb, length (data v1) = length (data v2) -> axis = None \/ axis = Some 0%Z \/ axis = Some (-1)%Z ->
  let d := distance1 (data v1) (data v2) in
  test_diff v1 v2 msg axis lim vb =
    Ok (d, if vb then match msg with Some m => [SaidMsg m] | None => [] end ++ [if Rlt_dec lim d then SaidDiff d else SaidClose] else []) /\
  0 <= d /\ (d = 0 <-> data v1 = data v2) /\ (d <= lim -> forall i, Rabs (nth i (data v1) 0 - nth i (data v2) 0) <= lim) /\
  forall e, (forall i, (i < length (data v1))%nat -> Rabs (nth i (data v1) 0 - nth i (data v2) 0) <= e) -> d <= INR (length (data v1)) * e.
Proof. exact f_diff. Qed.
Print Assumptions C101_difference.
Theorem C101_metric : forall v1 v2 v3 lim, length (data v1) = length (data v2) -> length (data v2) = length (data v3) ->
  exists d12 d21 d23 d13 s12 s21 s23 s13, test_diff v1 v2 None None lim true = Ok (d12, s12) /\ test_diff v2 v1 None None lim true = Ok (d21, s21) /\
    test_diff v2 v3 None None lim true = Ok (d23, s23) /\ test_diff v1 v3 None None lim true = Ok (d13, s13) /\ d21 = d12 /\ s21 = s12 /\ d13 <= d12 + d23.
Proof. exact f_diff_metric. Qed.
Print Assumptions C101_metric.
Theorem C101_sizes : forall v1 v2 msg axis lim vb, length (data v1) <> length (data v2) -> length (data v1) <> 1%nat -> length (data v2) <> 1%nat ->
  test_diff v1 v2 msg axis lim vb = Err ValueError.
Proof. exact f_diff_sizes. Qed.
Print Assumptions C101_sizes.
Theorem C101_one_element : forall v1 v2 c axis msg lim vb, data v1 = [c] -> axis = None \/ axis = Some 0%Z \/ axis = Some (-1)%Z ->
  exists s, test_diff v1 v2 msg axis lim vb = Ok (rsum (length (data v2)) (fun i => Rabs (c - nth i (data v2) 0)), s).
Proof. exact f_diff_one. Qed.
Print Assumptions C101_one_element.
Theorem C101_normals : forall chull ps vertices show_faces show_points,
  let h := hull_of_points chull ps in let fig := hull_normals vertices h show_faces show_points in let faces := h_simplices h in
  length (nf_text fig) = length ps /\ (forall i, (i < length ps)%nat -> nth i (nf_text fig) ((0, 0, 0), 0%nat) = (nth i ps (0, 0, 0), i)) /\
  (ps <> [] -> mean_of ps (nf_barycenter fig)) /\
  (show_faces = false -> nf_face fig = None) /\ (show_points = false -> nf_vertex fig = None) /\
  (show_faces = true -> exists arrows, nf_face fig = Some arrows /\ length arrows = length (chull ps) /\
     forall j, (j < length arrows)%nat -> let '(a, b, c) := nth j faces (0, 0, 0)%nat in let '(start, n) := nth j arrows ((0, 0, 0), (0, 0, 0)) in
       mean_of (corners ps (a, b, c)) start /\ dot3 n (sub3 (nth b ps (0, 0, 0)) (nth a ps (0, 0, 0))) = 0 /\ dot3 n (sub3 (nth c ps (0, 0, 0)) (nth a ps (0, 0, 0))) = 0 /\
       norm3 n = 2 * face_area ps (a, b, c) /\ dot3 n (sub3 (nf_barycenter fig) start) <= 1 / 100000) /\
  (show_points = true -> exists arrows, nf_vertex fig = Some arrows /\ length arrows = length ps /\
     forall i, (i < length ps)%nat -> fst (nth i arrows ((0, 0, 0), (0, 0, 0))) = nth i ps (0, 0, 0) /\
       (~ In i vertices -> snd (nth i arrows ((0, 0, 0), (0, 0, 0))) = (0, 0, 0)) /\
       (In i vertices -> forall w, (forall j, has_corner (nth j faces (0, 0, 0)%nat) i -> w j = 1) -> (forall j, ~ has_corner (nth j faces (0, 0, 0)%nat) i -> w j = 0) ->
          forall k, coord k (snd (nth i arrows ((0, 0, 0), (0, 0, 0)))) =
            rsum (length faces) (fun j => w j * (face_area ps (nth j faces (0, 0, 0)%nat) * coord k (face_normal ps (nth j faces (0, 0, 0)%nat)))))).
Proof. exact f_normals. Qed.
Print Assumptions C101_normals.
Theorem C101_zero_refuted : ~ (forall v1 v2 msg axis lim vb s, test_diff v1 v2 msg axis lim vb = Ok (0, s) -> shape v1 = shape v2 /\ data v1 = data v2).
Proof. exact f_diff_zero_refuted. Qed.
Print Assumptions C101_zero_refuted.
Theorem C101_entries_refuted : ~ (forall v1 v2 lim d s, test_diff v1 v2 None None lim true = Ok (d, s) ->
  (forall i, Rabs (nth i (data v1) 0 - nth i (data v2) 0) <= lim) -> s = [SaidClose]).
Proof. exact f_diff_entries_refuted. Qed.
Print Assumptions C101_entries_refuted.
Theorem C101_compare_refuted : forall A B, compare_ambi A B <> Ok tt.
Proof. exact f_compare_refuted. Qed.
Print Assumptions C101_compare_refuted.
Example C101_nonvacuous : test_diff (Nd [2%nat] [3; 1]) (Nd [2%nat] [1; 1]) (Some "taps"%string) (Some 0%Z) (1 / 1000000) true = Ok (2, [SaidMsg "taps"%string; SaidDiff 2]).
Proof. exact ex_diff. Qed.
Example C101_normals_nonvacuous : exists arrows, nf_face (hull_normals [0; 1; 2]%nat (hull_of_points (fun _ => [(0, 1, 2)%nat]) [(1, 0, 0); (0, 1, 0); (0, 0, 1)]) true true) = Some arrows /\
  length arrows = 1%nat /\ mean_of [(1, 0, 0); (0, 0, 1); (0, 1, 0)] (fst (nth 0 arrows ((0, 0, 0), (0, 0, 0)))).
Proof. exact ex_normals. Qed.
