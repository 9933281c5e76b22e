(** Final forms and concrete cases: intensity panning on layouts around the listener (C126). *)
From Coq Require Import Lra Lia Psatz Permutation.
From Verif Require Import Base BaseFacts M_utils M_sph0 M_sig M_process M_sph M_grids M_decoder M_decoder2 M_process2 M_plot S_utils S_sph S_grids S_decoder S_decoder2 S_plot S_retain X_sph S_misc P_dec1 P_dec2 P_dec3 X_dec1 X_dec2 P_plot3 P_retain P_retain2 S_cover S_cover2 P_cover1 P_cover2 P_cover3 X_cover X_cover2 P_cover4 X_cover3 P_vbip.
Open Scope R_scope.

Lemma ls_ok_wf h : ls_ok h -> hull_wf h /\ forall d, In d (h_d h) -> 0 < d.
Proof.
  intros (D & N). split; [unfold hull_wf; rewrite D; apply map_length|]. intros d I. rewrite D in I. apply in_map_iff in I. destruct I as (p & <- & Ip).
  specialize (N p Ip). unfold norm3. apply sqrt_lt_R0. unfold dot3. destruct p as [[x y] z]. unfold vx, vy, vz. cbn [fst snd].
  destruct (Req_dec x 0) as [->|]; [|nra]. destruct (Req_dec y 0) as [->|]; [|nra]. destruct (Req_dec z 0) as [->|]; [contradiction|nra].
Qed.
Lemma rows_nth (P : V3 -> list R -> Prop) src rows : Forall2 P src rows -> length rows = length src /\ forall i, (i < length src)%nat -> P (nth i src (0, 0, 0)) (nth i rows []).
Proof.
  intros F. split; [induction F; cbn; congruence|]. induction F as [|a b l l' A F IH]; intros k Hk; [cbn in Hk; lia|]. destruct k as [|k]; [exact A|apply IH; cbn in Hk; lia].
Qed.
Lemma f_vbip_all : forall lstsq3 o jobs sched src s vs, let h := s_hull s in
  lstsq3_contract lstsq3 -> norm_order o -> h_vbase h = None -> ls_ok h ->
  Forall (in_range (length (h_points h))) (in_force h vs) -> Forall (independent (h_points h)) (in_force h vs) ->
  (1 <= jobs)%Z -> (forall i, (i < length src)%nat -> (3 <= count_occ Nat.eq_dec sched i)%nat) ->
  in_force h vs <> [] -> goes_on (h_points h) (in_force h vs) -> (forall v, In v src -> v <> (0, 0, 0)) ->
  exists gains rows s', vbap lstsq3 jobs sched src s (POrd 2) vs false = (Ok gains, s') /\ vbip lstsq3 jobs sched src s o vs false = (Ok rows, s') /\
    length rows = length src /\ forall i, (i < length src)%nat -> let row := nth i rows [] in
      length row = length (h_points h) /\ (forall x, In x row -> 0 <= x) /\ unit_norm o row /\
      ((forall x, In x (nth i gains []) -> 0 <= x) -> exists k, 0 < k /\ intensity h row = scal3 k (nth i src (0, 0, 0))).
Proof.
  intros lstsq3 o jobs sched src s vs h LC NO V HL IR IN J S NE GO NZ.
  destruct (ls_ok_wf h HL) as (WF & DP). assert (N2 : norm_order (POrd 2)) by exact Rlt_0_2.
  destruct (vbap_rows_final lstsq3 (POrd 2) jobs sched src h vs LC N2 V WF IR IN J S) as (gains & E & F). destruct (rows_nth _ _ _ F) as (LG & FN).
  destruct (vbap_hull lstsq3 jobs sched src h (POrd 2) vs) as [r h'] eqn:Q. cbn [fst] in E. subst r.
  exists gains, (map (vbip_row o) gains), (set_hull s h'). unfold vbip, vbap. fold h. rewrite Q. split; [reflexivity|]. split; [reflexivity|]. split; [rewrite map_length; exact LG|].
  intros i Hi. set (row := nth i (map (vbip_row o) gains) []). pose proof (FN i Hi) as P. set (full := nth i gains []) in *.
  assert (ER : row = vbip_row o full) by (unfold row, full; rewrite (nth_map_in _ _ _ _ []) by (rewrite LG; exact Hi); reflexivity).
  assert (NZi : nth i src (0, 0, 0) <> (0, 0, 0)) by (apply NZ, nth_In; exact Hi).
  destruct (f_around (h_points h) (in_force h vs) (nth i src (0, 0, 0)) NE IN GO NZi) as (f & If & Cf).
  destruct (vbip_row_spec o full NO) as (L1 & NN & _). rewrite <- ER in L1, NN.
  assert (SP : exists j, (j < length full)%nat /\ 0 < nth j full 0).
  { destruct (some_positive h (in_force h vs) (nth i src (0, 0, 0)) full HL IR IN P) as [A|(Z & _)]; [exact A|]. exfalso.
    destruct (cone_active lstsq3 (POrd 2) h (in_force h vs) (nth i src (0, 0, 0)) full LC N2 IR IN WF DP P) as (j & Hj & Nj); [exists f; auto|]. apply Nj, Z. destruct P as (-> & _). exact Hj. }
  split; [rewrite L1; apply P|]. split; [exact NN|]. split; [rewrite ER; apply vbip_unit; assumption|].
  intros NG. apply (vbip_intensity (POrd 2) h (in_force h vs) (nth i src (0, 0, 0)) full row N2 WF IR IN DP P).
  - intros j Hj. apply NG, nth_In. exact Hj.
  - exists f; auto.
  - rewrite ER. apply vbip_roots. exact NO.
Qed.

Lemma panning_row_unique o h vs src row row' : norm_order o -> Forall (independent (h_points h)) vs -> src <> (0, 0, 0) ->
  panning_row o h vs src row -> panning_row o h vs src row' -> row = row'.
Proof.
  intros NO IN NZ (L & A) (L' & A'). apply (nth_ext_list 0); [congruence|]. intros j J. rewrite L in J.
  destruct A as [(i & g & Hi & P & B & V)|(N & V)]; destruct A' as [(i' & g' & Hi' & P' & B' & V')|(N' & V')].
  - assert (i = i') as -> by (destruct (Nat.lt_trichotomy i i') as [X|[X|X]]; [exfalso; exact (B' i g X P)|exact X|exfalso; exact (B i' g' X P')]).
    pose proof (proj1 (Forall_forall _ _) IN _ (nth_In vs (0, 0, 0)%nat Hi')) as I.
    destruct (pans_id (h_points h) o _ src g NO I NZ P) as (G & _). destruct (pans_id (h_points h) o _ src g' NO I NZ P') as (G' & _).
    rewrite V, V' by exact J. rewrite G, G'. reflexivity.
  - exfalso. exact (N' _ g (nth_In vs _ Hi) P).
  - exfalso. exact (N _ g' (nth_In vs _ Hi') P').
  - rewrite V, V' by exact J. reflexivity.
Qed.
Lemma f_vbip_continuous : forall lstsq3 o s vs src e, let h := s_hull s in
  lstsq3_contract lstsq3 -> norm_order o -> h_vbase h = None -> ls_ok h ->
  Forall (in_range (length (h_points h))) (in_force h vs) -> Forall (independent (h_points h)) (in_force h vs) ->
  in_force h vs <> [] -> encloses (h_points h) (in_force h vs) -> closed_surface (in_force h vs) -> src <> (0, 0, 0) -> 0 < e ->
  exists d, 0 < d /\ forall jobs sched srcs gains rows s' s'' i i', (1 <= jobs)%Z -> (forall k, (k < length srcs)%nat -> (3 <= count_occ Nat.eq_dec sched k)%nat) ->
    vbap lstsq3 jobs sched srcs s (POrd 2) vs false = (Ok gains, s') -> vbip lstsq3 jobs sched srcs s o vs false = (Ok rows, s'') ->
    (i < length srcs)%nat -> (i' < length srcs)%nat ->
    nth i srcs (0, 0, 0) = src -> norm3 (sub3 (nth i' srcs (0, 0, 0)) src) < d ->
    (forall x, In x (nth i gains []) -> 0 <= x) -> (forall x, In x (nth i' gains []) -> 0 <= x) ->
    forall j, Rabs (nth j (nth i' rows []) 0 - nth j (nth i rows []) 0) < e.
Proof.
  intros lstsq3 o s vs src e h LC NO V HL IR IN NE EN CS NZ E. destruct (ls_ok_wf h HL) as (WF & DP). assert (N2 : norm_order (POrd 2)) by exact Rlt_0_2.
  (* the row of [src] alone *)
  destruct (vbap_rows_final lstsq3 (POrd 2) 1 (repeat 0%nat 3) [src] h vs LC N2 V WF IR IN ltac:(lia)) as (g0 & E0 & F0).
  { intros i Hi. cbn in Hi. replace i with 0%nat by lia. cbn. lia. }
  inversion F0 as [|? full ? ? P F1]; subst. inversion F1; subst.
  destruct (f_around (h_points h) (in_force h vs) src NE IN (f_convex _ _ IN EN CS) NZ) as (f & If & Cf).
  assert (SP : exists j, (j < length full)%nat /\ 0 < nth j full 0).
  { destruct (some_positive h (in_force h vs) src full HL IR IN P) as [A|(Z & _)]; [exact A|]. exfalso.
    destruct (cone_active lstsq3 (POrd 2) h (in_force h vs) src full LC N2 IR IN WF DP P) as (j & Hj & Nj); [exists f; auto|]. apply Nj, Z. destruct P as (-> & _). exact Hj. }
  destruct (vbip_near o full e NO SP E) as (d0 & D0 & H0).
  destruct (f_continuous lstsq3 (POrd 2) h vs src d0 LC N2 V WF DP IR IN NE EN CS NZ D0) as (d & D & H). exists d. split; [exact D|].
  intros jobs sched srcs gains rows s' s'' i i' J S EG ER Hi Hi' Ei Ei' P1 P2 j.
  unfold vbip in ER. rewrite EG in ER. cbn [bind] in ER. injection ER as <- <-.
  unfold vbap in EG. fold h in EG. destruct (vbap_hull lstsq3 jobs sched srcs h (POrd 2) vs) as [r h'] eqn:Q. injection EG as -> <-.
  destruct (vbap_rows_final lstsq3 (POrd 2) jobs sched srcs h vs LC N2 V WF IR IN J S) as (g1 & E1 & F). rewrite Q in E1. cbn [fst] in E1. injection E1 as <-.
  destruct (rows_nth _ _ _ F) as (LG & FN).
  assert (SAME : nth i gains [] = full).
  { pose proof (FN i Hi) as Pi. rewrite Ei in Pi. apply (panning_row_unique (POrd 2) h (in_force h vs) src); assumption. }
  rewrite !(nth_map_in _ _ _ _ []) by (rewrite LG; assumption). rewrite SAME. apply H0. split.
  - destruct P as (-> & _). apply (FN i' Hi').
  - intros j'. rewrite <- SAME. apply (H jobs sched srcs gains i i'); auto. rewrite Q. reflexivity.
Qed.

(** on the plots of decoder_performance *)
Lemma f_vbip_performance : forall s lstsq3 pinv svd sa se,
  ls_ok (s_hull s) -> lstsq3_contract lstsq3 -> h_vbase (s_hull s) = None ->
  Forall (in_range (length (h_points (s_hull s)))) (h_valid (s_hull s)) -> Forall (independent (h_points (s_hull s))) (h_valid (s_hull s)) ->
  h_valid (s_hull s) <> [] -> goes_on (h_points (s_hull s)) (h_valid (s_hull s)) ->
  exists ms s', decoder_performance lstsq3 pinv svd s RVbip sa se None = (Ok (Some ms), s') /\ length ms = length (perf_grid sa se) /\
  forall i d, (i < length (perf_grid sa se))%nat ->
    let dir := grid_dir (nth i (perf_grid sa se) (0, 0)) in let h := s_hull s in
    pm_energy (nth i ms d) = 1 /\
    exists full row, panning_row (POrd 2) h (h_valid h) dir full /\ roots_of full row /\ nth i ms d = perf_measure h dir row /\
      ((forall p, In p (h_points h) -> norm3 p = 1) -> (forall j, (j < length full)%nat -> 0 <= nth j full 0) -> 1 / 100000000000000 <= norm3 (energy_vector h row) ->
       pm_error (nth i ms d) = Some 0).
Proof.
  intros s lstsq3 pinv svd sa se HL LC HV IR IN NE GO.
  destruct (vbip_perf s HL lstsq3 pinv svd LC HV IR IN sa se) as (ms & s' & E & L & H). exists ms, s'. split; [exact E|]. split; [exact L|].
  intros i d Hi dir h. destruct (H i d Hi) as (full & row & P & RO & Em & EN & ER). fold dir h in P, Em, EN, ER.
  destruct (f_around (h_points h) (h_valid h) dir NE IN GO (grid_dir_nz _)) as (f & If & Cf).
  destruct (ls_ok_wf h HL) as (WF & DP).
  split.
  - destruct EN as [EN|(_ & N)]; [exact EN|]. exfalso.
    destruct (cone_active lstsq3 (POrd 2) h (h_valid h) dir full LC Rlt_0_2 IR IN WF DP P) as (j & Hj & Nj); [exists f; auto|].
    destruct P as (_ & [(i0 & g & H0 & Pg & _)|(_ & V)]); [exact (N _ g (nth_In _ _ H0) Pg)|]. apply Nj, V. exact Hj.
  - exists full, row. split; [exact P|]. split; [exact RO|]. split; [exact Em|]. intros U NN NV. apply ER; auto. exists f; auto.
Qed.
(** after the constructor *)
Lemma f_vbip_setup : forall lstsq3 chull ps q o jobs sched src s, let h := setup_init chull ps q in
  lstsq3_contract lstsq3 -> norm_order o -> exact_hull (h_points h) (chull (h_points h)) -> general (h_points h) -> surrounded (h_points h) ->
  (forall p, In p (h_points h) -> p <> (0, 0, 0)) -> h_encloses h = h_simplices h -> s_hull s = h ->
  (1 <= jobs)%Z -> (forall i, (i < length src)%nat -> (3 <= count_occ Nat.eq_dec sched i)%nat) -> (forall v, In v src -> v <> (0, 0, 0)) ->
  exists gains rows s', vbap lstsq3 jobs sched src s (POrd 2) None false = (Ok gains, s') /\ vbip lstsq3 jobs sched src s o None false = (Ok rows, s') /\
    length rows = length src /\ forall i, (i < length src)%nat -> let row := nth i rows [] in
      length row = length (h_points h) /\ (forall x, In x row -> 0 <= x) /\ unit_norm o row /\
      ((forall x, In x (nth i gains []) -> 0 <= x) -> exists k, 0 < k /\ intensity h row = scal3 k (nth i src (0, 0, 0))).
Proof.
  intros lstsq3 chull ps q o jobs sched src s h LC NO EH GE SU NZ AL HS J S NS.
  assert (E2 : exact_hull (h_points h) (h_simplices h)) by (apply f_sorted; exact EH).
  assert (VE : in_force h None = h_simplices h) by (cbn [in_force]; rewrite <- AL; reflexivity).
  destruct (f_hull _ _ GE SU E2) as (NE & IR & IN & EN & CS & _).
  pose proof (f_vbip_all lstsq3 o jobs sched src s None) as G. cbv zeta in G. rewrite HS in G.
  apply G; auto; try (rewrite VE; assumption).
  - split; [|exact NZ]. unfold h, setup_init, hull_of_points. cbn [h_d h_points]. apply map_ext. intros p. unfold norm3, dot3. f_equal. ring.
  - rewrite VE. apply f_convex; assumption.
Qed.

(** a jump at the tolerance: three thousandths instead of a few millionths *)
Lemma f_vbip_continuous_refuted : exists s src e, let h := s_hull s in h_vbase h = None /\ ls_ok h /\ Forall (in_range (length (h_points h))) (h_valid h) /\
  Forall (independent (h_points h)) (h_valid h) /\ h_valid h <> [] /\ encloses (h_points h) (h_valid h) /\ closed_surface (h_valid h) /\ src <> (0, 0, 0) /\ 3 / 1000 <= e /\
  forall lstsq3 d, lstsq3_contract lstsq3 -> 0 < d -> exists src' row row' s', norm3 (sub3 src' src) < d /\
    vbip lstsq3 1 [] [src; src'] s (POrd 2) None false = (Ok [row; row'], s') /\ e <= Rabs (nth 1 row' 0 - nth 1 row 0).
Proof.
  set (h := oct_hull oct8). destruct tol_b_props as (B0 & B). assert (T0 : 0 < tol) by (unfold tol; lra).
  set (s := set_hull oct_setup h). exists s, at_tol, (3 / 1000). cbv zeta. change (s_hull s) with h.
  assert (LO : ls_ok h) by apply ex_oct.
  split; [reflexivity|]. split; [exact LO|]. split; [exact oct_range|]. split; [exact oct_indep|]. split; [discriminate|]. split; [exact oct_encloses|]. split; [exact oct_closed|].
  split; [intro X; injection X; intros; lra|]. split; [lra|]. intros lstsq3 d LC D.
  set (a := Rmax (tol / 2) (tol - d / 2)). assert (A1 : tol / 2 <= a) by apply Rmax_l. assert (A2 : tol - d / 2 <= a) by apply Rmax_r. assert (A3 : a < tol) by (apply Rmax_lub_lt; lra).
  destruct (below_pans a) as (k & K1 & PB); [lra|].
  destruct (vbap_fresh lstsq3 (POrd 2) LC Rlt_0_2 [at_tol; below_tol a] h None eq_refl (oct_wf _) oct_range oct_indep) as (rows & E & F).
  inversion F as [|? row ? ? P F1]; subst. inversion F1 as [|? row' ? ? P' F2]; subst. inversion F2; subst.
  eexists (below_tol a), (vbip_row (POrd 2) row), (vbip_row (POrd 2) row'), _. split.
  { unfold norm3, below_tol, at_tol, sub3, dot3, vx, vy, vz. cbn [fst snd]. replace ((- a - - tol) * (- a - - tol) + (tol_b - tol_b) * (tol_b - tol_b) + (0 - 0) * (0 - 0)) with (Rsqr (tol - a)) by (unfold Rsqr; ring).
    rewrite sqrt_Rsqr by lra. lra. }
  split.
  { unfold vbip, vbap. change (s_hull s) with h. change (@cons (R * R * R) at_tol [below_tol a]) with (@cons V3 at_tol [below_tol a]). rewrite E. cbn [bind map]. reflexivity. }
  (* the second source leaves loudspeaker 1 silent *)
  destruct (first_face h oct8 (below_tol a) row' _ ltac:(cbn; lia) PB P') as (g' & Pg' & V').
  assert (Z1 : nth 1 row' 0 = 0).
  { rewrite V' by (cbn; lia). cbn [oct8 nth]. unfold on_face, delta. cbn [Nat.eqb]. ring. }
  assert (R1 : nth 1 (vbip_row (POrd 2) row') 0 = 0).
  { destruct (vbip_roots (POrd 2) row' Rlt_0_2) as (_ & c & _ & Q). rewrite Q by (destruct P' as (-> & _); cbn; lia). rewrite Z1, Rmax_left, sqrt_0 by lra. ring. }
  (* the first one does not *)
  assert (VR : forall j, (j < 6)%nat -> nth j row 0 = on_face (1, 2, 4)%nat (tol, tol_b, 0) j).
  { intros j J. destruct P as (_ & [(i & g & Hi & Pg & BF & V)|(N & _)]).
    - rewrite V by exact J. cbn [h_d h_a h oct_hull]. rewrite oct_dist by lia.
      destruct i as [|[|i]]; [exfalso; exact (at_tol_1 g Pg)| |exfalso; exact (BF 1%nat _ ltac:(lia) at_tol_2)]. cbn [in_force h_valid h oct_hull oct8 nth].
      assert (I1 : independent octahedron (1, 2, 4)%nat) by exact (proj1 (Forall_forall _ _) oct_indep _ (or_intror (or_introl eq_refl))).
      assert (N0 : at_tol <> (0, 0, 0)) by (intro X; injection X; intros; lra).
      destruct (pans_id octahedron (POrd 2) (1, 2, 4)%nat at_tol g Rlt_0_2 I1 N0 Pg) as (G & _).
      destruct (pans_id octahedron (POrd 2) (1, 2, 4)%nat at_tol _ Rlt_0_2 I1 N0 at_tol_2) as (G2 & _). rewrite G, <- G2. ring.
    - exfalso. exact (N _ _ (or_intror (or_introl eq_refl)) at_tol_2). }
  destruct P as (LR & _). change (length (h_points h)) with 6%nat in LR.
  destruct (vbip_roots (POrd 2) row Rlt_0_2) as (L2 & c & C0 & Q). rewrite LR in L2, Q.
  assert (U : unit_norm (POrd 2) (vbip_row (POrd 2) row)).
  { apply vbip_unit; [exact Rlt_0_2|]. exists 1%nat. rewrite LR. split; [lia|]. rewrite VR by lia. unfold on_face, delta, vx, vy, vz. cbn. lra. }
  apply unit_norm_two in U. rewrite lsum_nth, map_length, L2 in U.
  rewrite (rsum_ext 6 _ (fun j => c * c * Rmax 0 (nth j row 0))) in U.
  2:{ intros j J. rewrite (nth_map_in _ _ _ _ 0) by (rewrite L2; exact J). rewrite Q by exact J. replace (c * sqrt (Rmax 0 (nth j row 0)) * (c * sqrt (Rmax 0 (nth j row 0)))) with (c * c * (sqrt (Rmax 0 (nth j row 0)) * sqrt (Rmax 0 (nth j row 0)))) by ring. rewrite sqrt_sqrt by apply Rmax_l. reflexivity. }
  rewrite rsum_scal in U. cbn [rsum] in U. rewrite !VR in U by lia. unfold on_face, delta, vx, vy, vz in U. cbn [Nat.eqb fst snd] in U.
  replace (0 * tol + 0 * tol_b + 0 * 0) with 0 in U by ring. replace (1 * tol + 0 * tol_b + 0 * 0) with tol in U by ring. replace (0 * tol + 1 * tol_b + 0 * 0) with tol_b in U by ring.
  replace (0 * tol + 0 * tol_b + 1 * 0) with 0 in U by ring. rewrite (Rmax_right 0 tol), (Rmax_right 0 tol_b), (Rmax_left 0 0) in U by lra.
  assert (TB : tol_b <= 1) by nra.
  rewrite R1, Rminus_0_l, Rabs_Ropp, Rabs_right; rewrite Q, VR by lia; unfold on_face, delta, vx, vy, vz; cbn [Nat.eqb fst snd];
    replace (1 * tol + 0 * tol_b + 0 * 0) with tol by ring; rewrite (Rmax_right 0 tol) by lra; pose proof (sqrt_pos tol) as SP; [|nra].
  assert (SS : c * sqrt tol * (c * sqrt tol) = c * c * tol) by (replace (c * sqrt tol * (c * sqrt tol)) with (c * c * (sqrt tol * sqrt tol)) by ring; rewrite sqrt_sqrt by lra; reflexivity).
  assert (CC : 99 / 100 <= c * c) by (unfold tol in *; nra).
  assert (0 <= c * sqrt tol) by nra. assert (9 / 1000000 <= c * c * tol) by (unfold tol in *; lra). nra.
Qed.

(** ** The octahedron *)
Definition oct_s : setup := set_hull oct_setup (oct_hull oct8).
Lemma ex_vbip : let h := s_hull oct_s in lstsq3_contract adj_lstsq /\ h_vbase h = None /\ ls_ok h /\
  Forall (in_range (length (h_points h))) (in_force h None) /\ Forall (independent (h_points h)) (in_force h None) /\ in_force h None <> [] /\
  encloses (h_points h) (in_force h None) /\ closed_surface (in_force h None) /\ goes_on (h_points h) (in_force h None) /\
  exists rows s', vbip adj_lstsq 1 [0; 0; 0; 1; 1; 1]%nat [(1, 1, 1); (0, -1, 0)] oct_s PInf None false = (Ok rows, s') /\ length rows = 2%nat /\
    forall row, In row rows -> length row = 6%nat /\ unit_norm PInf row.
Proof.
  intro h. assert (LO : ls_ok h) by apply ex_oct. assert (GO : goes_on (h_points h) (in_force h None)) by apply ex_oct.
  split; [apply adj_contract|]. split; [reflexivity|]. split; [exact LO|]. split; [exact oct_range|]. split; [exact oct_indep|]. split; [discriminate|]. split; [exact oct_encloses|]. split; [exact oct_closed|]. split; [exact GO|].
  destruct (f_vbip_all adj_lstsq PInf 1 [0; 0; 0; 1; 1; 1]%nat [(1, 1, 1); (0, -1, 0)] oct_s None adj_contract I eq_refl LO oct_range oct_indep ltac:(lia)) as (gains & rows & s' & _ & E & L & H).
  - intros [|[|i]] Hi; cbn in *; lia.
  - discriminate.
  - exact GO.
  - intros v [<-|[<-|[]]] X; injection X; intros; lra.
  - exists rows, s'. split; [exact E|]. split; [exact L|]. intros row I. destruct (In_nth _ _ [] I) as (i & Hi & <-). rewrite L in Hi. destruct (H i Hi) as (H1 & _ & H2 & _). split; [exact H1|exact H2].
Qed.
