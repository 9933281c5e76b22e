(** VBIP in decoder_performance; examples. *)
From Verif Require Import Base BaseFacts M_utils M_sph0 M_sig M_process M_sph M_grids M_decoder M_decoder2 M_process2 M_plot
  S_utils S_sph S_grids S_decoder S_decoder2 S_plot S_retain P_utils P_sig P_sph13 P_dec1 P_dec2 P_dec3 X_dec1 P_dec7 P_dec10 X_dec2 P_magls3 P_plot3 P_plot5 P_plot6 X_plot P_retain.
Open Scope R_scope.

Lemma some_positive h vs v full : ls_ok h -> Forall (in_range (length (h_points h))) vs -> Forall (independent (h_points h)) vs ->
  panning_row (POrd 2) h vs v full ->
  (exists j, (j < length full)%nat /\ 0 < nth j full 0) \/ ((forall j, (j < length full)%nat -> nth j full 0 = 0) /\ forall f g, In f vs -> ~ pans (POrd 2) (h_points h) f v g).
Proof.
  intros HL IR IN (Lf & [(i & g & Hi & P & _ & Ef)|(N & Ef)]); [|right; rewrite Lf; auto]. left.
  pose proof (proj1 (Forall_forall _ _) IR _ (nth_In vs (0,0,0)%nat Hi)) as R0. pose proof (proj1 (Forall_forall _ _) IN _ (nth_In vs (0,0,0)%nat Hi)) as I.
  destruct (nth i vs (0, 0, 0)%nat) as [[a b] c]. destruct R0 as (Ra & Rb & Rc). destruct (independent_distinct _ _ _ _ I) as (n1 & n2 & n3).
  destruct P as (U & (T1 & T2 & T3) & _). apply unit_norm_two in U. cbn [map lsum fold_right] in U.
  assert (DG : forall j, (j < length (h_points h))%nat -> 0 < dist_gain (nth j (h_d h) 0) (h_a h)).
  { intros j Hj. pose proof (pt_norm h HL j Hj) as PN. destruct HL as (HD & _). unfold dist_gain.
    assert (D : nth j (h_d h) 0 = norm3 (nth j (h_points h) (0, 0, 0))) by (rewrite HD; rewrite (nth_indep _ 0 (norm3 (0, 0, 0))) by (rewrite map_length; exact Hj); apply map_nth).
    rewrite D. destruct (Req_EM_T _ 0); [lra|]. apply exp_pos. }
  assert (V : forall j x, (j < length (h_points h))%nat -> on_face (a, b, c) g j = x -> 0 < x -> exists j, (j < length full)%nat /\ 0 < nth j full 0).
  { intros j x Hj O X. exists j. split; [rewrite Lf; exact Hj|]. rewrite Ef by exact Hj. rewrite O. apply Rmult_lt_0_compat; auto. }
  assert (C : 0 < vx g \/ 0 < vy g \/ 0 < vz g).
  { destruct (Rlt_dec 0 (vx g)); auto. destruct (Rlt_dec 0 (vy g)); auto. destruct (Rlt_dec 0 (vz g)); auto. exfalso.
    assert (B : forall x, - (1 / 100000) < x -> ~ 0 < x -> x * x <= 1 / 100).
    { intros x H1 H2. replace (x * x) with ((- x) * (- x)) by ring. apply Rle_trans with ((1 / 100000) * (1 / 100000)); [apply Rmult_le_compat; lra|lra]. }
    pose proof (B _ T1 n). pose proof (B _ T2 n0). pose proof (B _ T3 n4). lra. }
  destruct C as [C|[C|C]]; [apply (V a (vx g))|apply (V b (vy g))|apply (V c (vz g))]; auto; unfold on_face, delta; rewrite ?Nat.eqb_refl;
    repeat match goal with |- context [Nat.eqb ?u ?v] => destruct (Nat.eqb_spec u v); try congruence end; lra.
Qed.
Section Vbip.
Variable s : setup.
Let h := s_hull s.
Hypothesis HL : ls_ok h.
Variables (lstsq3 : M3 -> M3) (pinv : mat -> mat) (svd : mat -> mat * list R * mat).
Hypothesis LC : lstsq3_contract lstsq3.
Hypothesis HV : h_vbase h = None.
Hypothesis IR : Forall (in_range (length (h_points h))) (h_valid h).
Hypothesis IN : Forall (independent (h_points h)) (h_valid h).
Lemma unit_dist : (forall p, In p (h_points h) -> norm3 p = 1) -> forall j, (j < length (h_points h))%nat ->
  nth j (h_d h) 0 = 1 /\ dist_gain (nth j (h_d h) 0) (h_a h) = 1 /\ Rpower (norm3 (nth j (h_points h) (0, 0, 0))) (h_a h) = 1 /\ ls_dir h j = nth j (h_points h) (0, 0, 0).
Proof.
  intros U j Hj. destruct HL as (HD & _). pose proof (U _ (@nth_In V3 _ _ (0, 0, 0) Hj)) as N.
  assert (D : nth j (h_d h) 0 = 1) by (rewrite HD; rewrite (nth_indep _ 0 (norm3 (0, 0, 0))) by (rewrite map_length; exact Hj); rewrite map_nth; exact N).
  split; [exact D|]. rewrite D. split; [unfold dist_gain; destruct (Req_EM_T 1 0); [lra|]; rewrite ln_1, Rmult_0_r; apply exp_0|]. rewrite N. unfold Rpower. rewrite ln_1, Rmult_0_r, exp_0. split; [reflexivity|].
  unfold ls_dir. rewrite N. destruct (nth j (h_points h) (0, 0, 0)) as [[? ?] ?]. unfold scal3, vx, vy, vz. cbn [fst snd]. rewrite Rinv_1. f_equal; [f_equal|]; ring.
Qed.
Lemma vbip_perf sa se : exists ms s', decoder_performance lstsq3 pinv svd s RVbip sa se None = (Ok (Some ms), s') /\ length ms = length (perf_grid sa se) /\
  forall i d, (i < length (perf_grid sa se))%nat ->
    let dir := grid_dir (nth i (perf_grid sa se) (0, 0)) in
    exists full row, panning_row (POrd 2) h (h_valid h) dir full /\ roots_of full row /\ nth i ms d = perf_measure h dir row /\
      (pm_energy (nth i ms d) = 1 \/ pm_energy (nth i ms d) = 0 /\ forall f g, In f (h_valid h) -> ~ pans (POrd 2) (h_points h) f dir g) /\
      ((forall p, In p (h_points h) -> norm3 p = 1) -> (forall j, (j < length full)%nat -> 0 <= nth j full 0) ->
       (exists f, In f (h_valid h) /\ inside_cone (h_points h) f dir) -> 1 / 100000000000000 <= norm3 (energy_vector h row) ->
       pm_error (nth i ms d) = Some 0).
Proof.
  set (grid := perf_grid sa se).
  assert (NO : norm_order (POrd 2)) by (unfold norm_order; lra). assert (WF : hull_wf h) by exact (wf s HL).
  destruct (vbap_fresh lstsq3 (POrd 2) LC NO (map grid_dir grid) h None HV WF IR IN) as (rows & E & F). cbn [in_force] in E, F.
  assert (LR : length rows = length grid). { rewrite <- (map_length grid_dir grid). clear E. induction F; cbn; congruence. }
  assert (FN : forall i, (i < length grid)%nat -> panning_row (POrd 2) h (h_valid h) (grid_dir (nth i grid (0, 0))) (nth i rows [])).
  { rewrite <- (map_length grid_dir grid). intros i. rewrite <- (map_nth grid_dir). clear E LR. revert i. induction F; intros i Hi; cbn in Hi; [lia|]. destruct i; cbn [nth]; [assumption|]. apply IHF. lia. }
  eset (h' := set_vbase h _) in E.
  assert (LV : forall g, length (vbip_row (POrd 2) g) = length g) by (intros g; apply (vbip_row_spec (POrd 2) g NO)).
  destruct (perf_ok lstsq3 pinv svd s RVbip sa se None (map (vbip_row (POrd 2)) rows) (set_hull s h')) as (ms & E1 & Lm & V).
  - unfold perf_gains. change (fun g : R * R => sph2cart (fst g) (snd g) 1) with grid_dir. unfold vbip, vbap. fold grid h. rewrite E. reflexivity.
  - intros row I. fold h. apply in_map_iff in I. destruct I as (g & <- & I). rewrite LV. destruct (In_nth _ _ [] I) as (i & Hi & <-). rewrite LR in Hi. apply (FN i Hi).
  - rewrite map_length. exact LR.
  - exists ms, (set_hull s h'). split; [exact E1|]. split; [exact Lm|]. intros i d Hi dir. rewrite V by exact Hi. fold grid dir. fold grid in Hi.
    rewrite (nth_map_in _ _ _ _ []) by (rewrite LR; exact Hi). pose proof (FN i Hi) as P. fold dir in P. set (full := nth i rows []) in *. set (row := vbip_row (POrd 2) full).
    exists full, row. split; [exact P|]. pose proof (vbip_roots (POrd 2) full NO) as RO. fold row in RO. split; [exact RO|]. split; [reflexivity|].
    change (perf_measure (s_hull (set_hull s h')) dir row) with (perf_measure h dir row).
    destruct (sums_ok h row dir) as (_ & EN). split.
    + rewrite EN. destruct (some_positive h (h_valid h) dir full HL IR IN P) as [(j & Hj & Pj)|(Z & N)].
      * left. pose proof (vbip_unit (POrd 2) full NO (ex_intro _ j (conj Hj Pj))) as U. fold row in U. apply unit_norm_two in U. rewrite <- U. f_equal. apply map_ext. intros x. ring.
      * right. split; [|exact N]. destruct RO as (Lr & c & _ & Er). rewrite lsum_nth, map_length, Lr. apply rsum_0. intros j Hj. rewrite (nth_map_in _ _ _ _ 0) by (rewrite Lr; exact Hj). rewrite Er, Z by exact Hj.
        rewrite Rmax_left by lra. rewrite sqrt_0. ring.
    + intros U NN CO NV. destruct (vbip_intensity (POrd 2) h (h_valid h) dir full row NO WF IR IN) as (k & K & IK); auto.
      { intros d0 Id. destruct (In_nth _ _ 0 Id) as (j & Hj & <-). rewrite WF in Hj. destruct (unit_dist U j Hj) as (-> & _). lra. }
      assert (Lr : length row = length (h_points h)) by (unfold row; rewrite LV; apply P).
      assert (EV : exists q, 0 < q /\ energy_vector h row = scal3 q dir).
      { assert (Q : forall w : V3 -> R, rsum (length (h_points h)) (fun l => at_listener h row l ^ 2 * w (ls_dir h l)) = rsum (length row) (fun j => nth j row 0 ^ 2 / dist_gain (nth j (h_d h) 0) (h_a h) * w (nth j (h_points h) (0, 0, 0)))).
        { intros w. rewrite Lr. apply rsum_ext. intros j Hj. destruct (unit_dist U j Hj) as (_ & -> & Rp & ->). unfold at_listener. rewrite Rp. field. }
        assert (EP : 0 < energy_at h row).
        { destruct (some_positive h (h_valid h) dir full HL IR IN P) as [(j & Hj & Pj)|(_ & N)].
          - destruct RO as (_ & c & Pc & Er). unfold energy_at. assert (HJ : (j < length (h_points h))%nat) by (destruct P as (<- & _); exact Hj). destruct (unit_dist U j HJ) as (_ & _ & Rp & _).
            apply Rlt_le_trans with (rsum (length (h_points h)) (fun l => if Nat.eqb l j then at_listener h row l ^ 2 else 0)).
            + rewrite (rsum_single _ j) by (auto; intros l Hl NL; apply Nat.eqb_neq in NL; rewrite NL; reflexivity). rewrite Nat.eqb_refl. unfold at_listener. rewrite Rp, Er by exact Hj. rewrite Rmax_right by lra.
              apply pow_lt. unfold Rdiv. rewrite Rinv_1, Rmult_1_r. apply Rmult_lt_0_compat; [exact Pc|apply sqrt_lt_R0, Pj].
            + apply rsum_le. intros l Hl. destruct (Nat.eqb l j); [lra|apply pow2_ge_0].
          - exfalso. destruct CO as (f & If & Cf). destruct (cone_pans (POrd 2) NO (h_points h) f dir) as (g & Pg); auto; [|exact (N f g If Pg)]. apply (proj1 (Forall_forall _ _) IN f If). }
        exists (k / energy_at h row). split; [apply Rdiv_lt_0_compat; assumption|]. unfold energy_vector. rewrite (Q vx), (Q vy), (Q vz).
        change ((vx (intensity h row) / energy_at h row, vy (intensity h row) / energy_at h row, vz (intensity h row) / energy_at h row) = scal3 (k / energy_at h row) dir). rewrite IK.
        unfold scal3. unfold vx, vy, vz. cbn [fst snd]. f_equal; [f_equal|]; field; lra. }
      destruct EV as (q & Pq & EV). assert (DU : dot3 dir dir = 1) by apply grid_unit.
      assert (NZ : energy_at h row <> 0).
      { intro Z. unfold energy_vector in EV. rewrite Z in EV. unfold Rdiv in EV. rewrite Rinv_0, !Rmult_0_r in EV.
        assert (dot3 (scal3 q dir) (scal3 q dir) = q * q) by (replace (dot3 (scal3 q dir) (scal3 q dir)) with (q * q * dot3 dir dir) by (destruct dir as [[? ?] ?]; unfold dot3, scal3, vx, vy, vz; cbn [fst snd]; ring); rewrite DU; ring).
        rewrite <- EV in H. unfold dot3, vx, vy, vz in H. cbn [fst snd] in H. assert (0 < q * q) by (apply Rmult_lt_0_compat; assumption). lra. }
      destruct (f_vector h row dir HL Lr DU NZ) as (_ & FE). rewrite FE by exact NV. f_equal. rewrite EV. unfold S_decoder.angle.
      assert (N1 : norm3 dir = 1) by (unfold norm3; rewrite DU; apply sqrt_1).
      assert (Nq : norm3 (scal3 q dir) = q).
      { unfold norm3. replace (dot3 (scal3 q dir) (scal3 q dir)) with (q * q * dot3 dir dir) by (destruct dir as [[? ?] ?]; unfold dot3, scal3, vx, vy, vz; cbn [fst snd]; ring). rewrite DU, Rmult_1_r. apply sqrt_square. lra. }
      rewrite N1, Nq. replace (dot3 dir (scal3 q dir)) with (q * dot3 dir dir) by (destruct dir as [[? ?] ?]; unfold dot3, scal3, vx, vy, vz; cbn [fst snd]; ring).
      rewrite DU. replace (q * 1 / (1 * q)) with 1 by (field; lra). rewrite acos_1. unfold degrees. field. apply PI_neq0.
Qed.
End Vbip.
