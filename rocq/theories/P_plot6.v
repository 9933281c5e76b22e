(** decoder_performance: from the renderer to the figures. *)
From Verif Require Import Base BaseFacts M_utils M_sig M_process M_sph M_grids M_decoder M_decoder2 M_process2 M_plot S_sph S_decoder S_plot P_utils P_sig P_sph13 P_dec1 P_dec2 P_dec3 P_dec10 P_magls3 P_plot3 P_plot5.
Open Scope R_scope.

Lemma grid_unit q : dot3 (grid_dir q) (grid_dir q) = 1.
Proof.
  destruct q as [a z]. unfold grid_dir, sph2cart, dot3, vx, vy, vz. cbn [fst snd]. pose proof (sin2_cos2 a). pose proof (sin2_cos2 z). unfold Rsqr in *.
  replace _ with ((sin a * sin a + cos a * cos a) * (sin z * sin z) + cos z * cos z); [rewrite H; lra|ring].
Qed.

(** the i-th measures are those of the i-th direction and the i-th row of gains *)
Lemma perf_ok lstsq3 pinv svd s r sa se N G s' : perf_gains lstsq3 pinv svd s r (perf_grid sa se) N = (Ok (Some G), s') ->
  (forall row, In row G -> length row = length (h_points (s_hull s))) -> length G = length (perf_grid sa se) ->
  exists ms, decoder_performance lstsq3 pinv svd s r sa se N = (Ok (Some ms), s') /\ length ms = length (perf_grid sa se) /\
    forall i d, (i < length (perf_grid sa se))%nat -> nth i ms d = perf_measure (s_hull s') (grid_dir (nth i (perf_grid sa se) (0, 0))) (nth i G []).
Proof.
  intros E HR HL. unfold decoder_performance. rewrite E. cbn [bind orsome].
  assert (F : forallb (fun row => Nat.eqb (length row) (length (h_points (s_hull s)))) G = true) by (apply forallb_forall; intros row I; apply Nat.eqb_eq, HR, I).
  rewrite F. cbn [assert_ bind]. eexists. split; [reflexivity|]. split; [rewrite map_length, combine_length; lia|].
  intros i d Hi. rewrite (nth_indep _ d ((fun q => perf_measure (s_hull s') (sph2cart (fst (fst q)) (snd (fst q)) 1) (snd q)) ((0, 0), []))) by (rewrite map_length, combine_length; lia).
  rewrite (map_nth (fun q => perf_measure (s_hull s') (sph2cart (fst (fst q)) (snd (fst q)) 1) (snd q))), combine_nth by congruence. reflexivity.
Qed.

(** ** nearest loudspeaker *)
Section Nls.
Variable s : setup.
Let h := s_hull s.
Hypothesis HL : ls_ok h.
Hypothesis NE : h_points h <> [].
Variables (lstsq3 : M3 -> M3) (pinv : mat -> mat) (svd : mat -> mat * list R * mat).
Lemma nls_ok sa se : exists ms, decoder_performance lstsq3 pinv svd s RNls sa se None = (Ok (Some ms), s) /\ length ms = length (perf_grid sa se) /\
  forall i d, (i < length (perf_grid sa se))%nat ->
    let dir := grid_dir (nth i (perf_grid sa se) (0, 0)) in
    exists l, (l < length (h_points h))%nat /\
      (forall j, (j < length (h_points h))%nat -> S_decoder.angle dir (nth l (h_points h) (0, 0, 0)) <= S_decoder.angle dir (nth j (h_points h) (0, 0, 0))) /\
      pm_error (nth i ms d) = Some (degrees (S_decoder.angle dir (nth l (h_points h) (0, 0, 0)))) /\ pm_spread (nth i ms d) = 0 /\
      pm_amplitude (nth i ms d) = Rpower (norm3 (nth l (h_points h) (0, 0, 0))) (h_a h) /\
      pm_energy (nth i ms d) = Rpower (norm3 (nth l (h_points h) (0, 0, 0))) (h_a h) ^ 2.
Proof.
  set (grid := perf_grid sa se). pose proof HL as (HD & NZ).
  destruct (mapM_exists (nearest_row h) (fun src row => length row = length (h_points h) /\ exists l, (l < length (h_points h))%nat /\
      (forall j, (j < length (h_points h))%nat -> S_decoder.angle src (nth l (h_points h) (0, 0, 0)) <= S_decoder.angle src (nth j (h_points h) (0, 0, 0))) /\
      (forall j, (j < length (h_points h))%nat -> nth j row 0 = if Nat.eqb j l then dist_gain (norm3 (nth l (h_points h) (0,0,0))) (h_a h) else 0))
      (map grid_dir grid) (grid_dir (0, 0)) []) as (G & EG & LG & QG).
  { intros src I. apply in_map_iff in I. destruct I as (q & <- & _). destruct (nearest_row_spec h (grid_dir q) HD NE) as (l & row & E & Lr & Hl & A & V); auto.
    - intro Z. pose proof (grid_unit q) as U. rewrite Z in U. unfold dot3, vx, vy, vz in U. cbn [fst snd] in U. lra.
    - exists row. split; [exact E|]. split; [exact Lr|]. exists l. split; [exact Hl|]. split; [intros j Hj; apply (A j Hj)|exact V]. }
  rewrite map_length in LG, QG.
  destruct (perf_ok lstsq3 pinv svd s RNls sa se None G s) as (ms & E & Lm & V).
  - unfold perf_gains. change (fun g : R * R => sph2cart (fst g) (snd g) 1) with grid_dir. unfold nearest_loudspeaker. fold grid h. rewrite EG. reflexivity.
  - intros row I. fold h. destruct (In_nth _ _ [] I) as (i & Hi & <-). rewrite LG in Hi. apply (QG i Hi).
  - exact LG.
  - exists ms. split; [exact E|]. split; [exact Lm|]. intros i d Hi dir. rewrite V by exact Hi. fold dir grid h.
    destruct (QG i Hi) as (Lr & l & Hl & A & W). rewrite (map_nth grid_dir) in A. fold dir in A. set (row := nth i G []) in *.
    exists l. split; [exact Hl|]. split; [exact A|].
    assert (PN : 0 < norm3 (nth l (h_points h) (0, 0, 0))) by (apply (pt_norm h HL); exact Hl).
    assert (DG : dist_gain (norm3 (nth l (h_points h) (0, 0, 0))) (h_a h) = Rpower (norm3 (nth l (h_points h) (0, 0, 0))) (h_a h)).
    { unfold dist_gain. destruct (Req_EM_T _ 0); [lra|reflexivity]. }
    destruct (single_ok h HL row Lr dir (grid_unit _) l Hl) as (B1 & B2 & B3 & B4).
    + rewrite W by exact Hl. rewrite Nat.eqb_refl, DG. unfold Rpower. pose proof (exp_pos (h_a h * ln (norm3 (nth l (h_points h) (0, 0, 0))))). lra.
    + intros j Hj NJ. rewrite W by exact Hj. apply Nat.eqb_neq in NJ. rewrite NJ. reflexivity.
    + rewrite W, Nat.eqb_refl, DG in B1, B2 by exact Hl. auto.
Qed.
End Nls.

(** ** VBAP *)
Lemma on_face_sq a b c g n : (a < n)%nat -> (b < n)%nat -> (c < n)%nat -> a <> b -> a <> c -> b <> c ->
  rsum n (fun j => on_face (a, b, c) g j ^ 2) = vx g ^ 2 + vy g ^ 2 + vz g ^ 2.
Proof.
  intros A B C n1 n2 n3. unfold on_face.
  rewrite (rsum_ext n _ (fun j => (vx g ^ 2 * delta j a + vy g ^ 2 * delta j b) + vz g ^ 2 * delta j c)).
  - rewrite !rsum_plus, !rsum_scal. assert (D : forall k, (k < n)%nat -> rsum n (fun j => delta j k) = 1).
    { intros k Hk. rewrite (rsum_single n k); [unfold delta; rewrite Nat.eqb_refl; reflexivity|exact Hk|]. intros j Hj NJ. unfold delta. apply Nat.eqb_neq in NJ. rewrite NJ. reflexivity. }
    rewrite !D by assumption. ring.
  - intros j _. unfold delta. destruct (Nat.eqb_spec j a), (Nat.eqb_spec j b), (Nat.eqb_spec j c); subst; try congruence; ring.
Qed.
Lemma panning_energy h vs src row : ls_ok h -> Forall (in_range (length (h_points h))) vs -> Forall (independent (h_points h)) vs ->
  panning_row (POrd 2) h vs src row -> energy_at h row = 1 \/ (energy_at h row = 0 /\ forall f g, In f vs -> ~ pans (POrd 2) (h_points h) f src g).
Proof.
  intros HL IR IN (Lr & [(i & g & Hi & P & _ & V)|(N & V)]).
  - left. pose proof (proj1 (Forall_forall _ _) IR _ (nth_In vs (0,0,0)%nat Hi)) as R. pose proof (proj1 (Forall_forall _ _) IN _ (nth_In vs (0,0,0)%nat Hi)) as I.
    destruct (nth i vs (0, 0, 0)%nat) as [[a b] c]. destruct R as (Ra & Rb & Rc). destruct (independent_distinct _ _ _ _ I) as (n1 & n2 & n3).
    destruct P as (U & _). apply unit_norm_two in U. cbn [map lsum] in U. unfold energy_at. rewrite (rsum_ext _ _ (fun j => on_face (a, b, c) g j ^ 2)).
    + rewrite on_face_sq by assumption. cbn in U. lra.
    + intros j Hj. f_equal. unfold at_listener. rewrite V by exact Hj. pose proof (pt_norm h HL j Hj) as PN. destruct HL as (HD & _).
      assert (D : nth j (h_d h) 0 = norm3 (nth j (h_points h) (0, 0, 0))) by (rewrite HD; rewrite (nth_indep _ 0 (norm3 (0, 0, 0))) by (rewrite map_length; exact Hj); apply map_nth).
      rewrite D. unfold dist_gain. destruct (Req_EM_T _ 0); [lra|]. unfold Rpower. field. pose proof (exp_pos (h_a h * ln (norm3 (nth j (h_points h) (0, 0, 0))))). lra.
  - right. split; [|exact N]. unfold energy_at. apply rsum_0. intros j Hj. unfold at_listener. rewrite V by exact Hj. unfold Rdiv. ring.
Qed.
Section Vbap.
Variable s : setup.
Let h := s_hull s.
Hypothesis HL : ls_ok h.
Variables (lstsq3 : M3 -> M3) (pinv : mat -> mat) (svd : mat -> mat * list R * mat).
Hypothesis LC : lstsq3_contract lstsq3.
Hypothesis HV : h_vbase h = None.
Hypothesis IR : Forall (in_range (length (h_points h))) (h_valid h).
Hypothesis IN : Forall (independent (h_points h)) (h_valid h).
Lemma wf : hull_wf h. Proof. unfold hull_wf. destruct HL as (-> & _). apply map_length. Qed.
Lemma vbap_perf sa se : exists ms s', decoder_performance lstsq3 pinv svd s RVbap sa se None = (Ok (Some ms), s') /\ length ms = length (perf_grid sa se) /\
  forall i d, (i < length (perf_grid sa se))%nat ->
    let dir := grid_dir (nth i (perf_grid sa se) (0, 0)) in
    exists row, panning_row (POrd 2) h (h_valid h) dir row /\ nth i ms d = perf_measure h dir row /\
      ((exists f, In f (h_valid h) /\ inside_cone (h_points h) f dir) -> energy_at h row = 1 /\ pm_error (nth i ms d) <> None) /\
      ((forall f g, In f (h_valid h) -> ~ pans (POrd 2) (h_points h) f dir g) -> pm_error (nth i ms d) = None /\ pm_spread (nth i ms d) = 180) /\
      ((forall p, In p (h_points h) -> norm3 p = 1) -> pm_energy (nth i ms d) = 1 \/ pm_energy (nth i ms d) = 0).
Proof.
  set (grid := perf_grid sa se).
  assert (NO : norm_order (POrd 2)) by (unfold norm_order; lra).
  destruct (vbap_fresh lstsq3 (POrd 2) LC NO (map grid_dir grid) h None HV wf IR IN) as (rows & E & F). cbn [in_force] in E, F.
  assert (LR : length rows = length grid). { rewrite <- (map_length grid_dir grid). clear E. induction F; cbn; congruence. }
  assert (FN : forall i, (i < length grid)%nat -> panning_row (POrd 2) h (h_valid h) (grid_dir (nth i grid (0, 0))) (nth i rows [])).
  { rewrite <- (map_length grid_dir grid). intros i. rewrite <- (map_nth grid_dir). clear E LR. revert i. induction F; intros i Hi; cbn in Hi; [lia|]. destruct i; cbn [nth]; [assumption|]. apply IHF. lia. }
  eset (h' := set_vbase h _) in E. 
  destruct (perf_ok lstsq3 pinv svd s RVbap sa se None rows (set_hull s h')) as (ms & E1 & Lm & V).
  - unfold perf_gains. change (fun g : R * R => sph2cart (fst g) (snd g) 1) with grid_dir. unfold vbap. fold grid h. rewrite E. reflexivity.
  - intros row I. fold h. destruct (In_nth _ _ [] I) as (i & Hi & <-). rewrite LR in Hi. apply (FN i Hi).
  - exact LR.
  - exists ms, (set_hull s h'). split; [exact E1|]. split; [exact Lm|]. intros i d Hi dir. rewrite V by exact Hi. fold grid dir. exists (nth i rows []). pose proof (FN i Hi) as P. fold dir in P. set (row := nth i rows []) in *.
    split; [exact P|]. split; [reflexivity|]. change (perf_measure (s_hull (set_hull s h')) dir row) with (perf_measure h dir row).
    pose proof P as (Lr & _). pose proof (panning_energy h (h_valid h) dir row HL IR IN P) as EN. split; [|split].
    + intros (f & If & Cf). destruct EN as [E0|(_ & N)].
      * split; [exact E0|]. rewrite (error_eq h HL row Lr dir (grid_unit _)) by (rewrite E0; apply R1_neq_R0). discriminate.
      * exfalso. destruct (cone_pans (POrd 2) NO (h_points h) f dir) as (g & Pg); auto; [|apply (N f g If Pg)]. apply (proj1 (Forall_forall _ _) IN f If).
    + intros N. assert (E0 : energy_at h row = 0). { destruct P as (_ & [(k & g & Hk & P & _)|(_ & V0)]); [exfalso; apply (N _ g (nth_In _ _ Hk) P)|]. unfold energy_at. apply rsum_0. intros j Hj. unfold at_listener. rewrite V0 by exact Hj. unfold Rdiv. ring. }
      destruct (silent_ok h HL row Lr dir E0) as (-> & ->). auto.
    + intros U. destruct (sums_ok h row dir) as (_ & ->).
      assert (Q : lsum (map (fun x => x ^ 2) row) = energy_at h row).
      { rewrite lsum_nth, map_length, Lr. unfold energy_at. apply rsum_ext. intros j Hj. rewrite (nth_indep _ 0 (0 ^ 2)) by (rewrite map_length, Lr; exact Hj). rewrite (map_nth (fun x => x ^ 2)). f_equal. unfold at_listener.
        rewrite U by (apply nth_In; exact Hj). unfold Rpower. rewrite ln_1, Rmult_0_r, exp_0. field. }
      rewrite Q. destruct EN as [->|(-> & _)]; auto.
Qed.
End Vbap.
