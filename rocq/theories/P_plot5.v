(** decoder_performance: measures of one direction, the grid, nearest loudspeaker. *)
From Verif Require Import Base BaseFacts M_utils M_sig M_process M_sph M_grids M_decoder M_decoder2 M_process2 M_plot S_sph S_decoder S_plot P_utils P_proc2 P_sig P_sph7 P_sph13 P_dec2 P_dec3 P_dec10 P_plot3.
Open Scope R_scope.

Section Measures.
Variable h : hull.
Hypothesis HL : ls_ok h.
Let pts := h_points h.
Let n := length pts.
Let ls := map (fun x => scal3 (/ snd x) (fst x)) (combine (h_points h) (h_d h)).
Lemma ls_eq : ls = map (fun p => scal3 (/ norm3 p) p) pts.
Proof.
  unfold ls. destruct HL as (E & _). rewrite E. fold pts. generalize pts. intros l. induction l as [|p l IH]; [reflexivity|]. cbn [map combine fst snd]. rewrite IH. reflexivity.
Qed.
Lemma ls_len : length ls = n. Proof. rewrite ls_eq, map_length. reflexivity. Qed.
Lemma ls_nth l : (l < n)%nat -> nth l ls (0, 0, 0) = ls_dir h l.
Proof.
  intros Hl. rewrite ls_eq. rewrite (nth_indep _ (0, 0, 0) (scal3 (/ norm3 (0, 0, 0)) (0, 0, 0))) by (rewrite map_length; exact Hl). rewrite (map_nth (fun p => scal3 (/ norm3 p) p)). reflexivity.
Qed.
Lemma pt_norm l : (l < n)%nat -> 0 < norm3 (nth l pts (0, 0, 0)).
Proof.
  intros Hl. destruct HL as (_ & NZ). pose proof (norm3_nonneg (nth l pts (0, 0, 0))) as P. destruct P as [P|P]; [exact P|]. exfalso. apply (NZ (nth l pts (0, 0, 0))); [apply nth_In; exact Hl|].
  symmetry in P. pose proof (norm3_sq (nth l pts (0, 0, 0))) as Q. rewrite P in Q. destruct (nth l pts (0, 0, 0)) as [[a b] c]. unfold dot3, vx, vy, vz in Q. cbn [fst snd] in Q.
  assert (a = 0) by nra. assert (b = 0) by nra. assert (c = 0) by nra. subst. reflexivity.
Qed.
Lemma dir_unit l : (l < n)%nat -> dot3 (ls_dir h l) (ls_dir h l) = 1.
Proof.
  intros Hl. pose proof (pt_norm l Hl) as P. unfold ls_dir. fold pts. set (p := nth l pts (0, 0, 0)) in *. pose proof (norm3_sq p) as Q.
  replace (dot3 (scal3 (/ norm3 p) p) (scal3 (/ norm3 p) p)) with (/ norm3 p * / norm3 p * dot3 p p) by (destruct p as [[a b] c]; unfold dot3, scal3, vx, vy, vz; cbn [fst snd]; ring).
  rewrite <- Q. field. lra.
Qed.

Variable g : list R.
Hypothesis HG : length g = n.
Let gl := map (fun x => fst x / np_pow (snd x) (h_a h)) (combine g (h_d h)).
Lemma gl_len : length gl = n.
Proof. unfold gl. destruct HL as (E & _). rewrite map_length, combine_length, E, map_length. fold pts n. rewrite HG. apply Nat.min_id. Qed.
Lemma gl_nth l : (l < n)%nat -> nth l gl 0 = at_listener h g l.
Proof.
  intros Hl. destruct HL as (E & _). assert (LD : length (h_d h) = n) by (rewrite E, map_length; reflexivity).
  unfold gl. rewrite (nth_indep _ 0 ((fun x => fst x / np_pow (snd x) (h_a h)) (0, 0))) by (rewrite map_length, combine_length, HG, LD; lia).
  rewrite (map_nth (fun x => fst x / np_pow (snd x) (h_a h))), combine_nth by congruence. cbn [fst snd]. unfold at_listener.
  assert (D : nth l (h_d h) 0 = norm3 (nth l pts (0, 0, 0))) by (rewrite E; rewrite (nth_indep _ 0 (norm3 (0, 0, 0))) by (rewrite map_length; exact Hl); apply map_nth).
  rewrite D. fold pts. pose proof (pt_norm l Hl). unfold np_pow. replace (Reqb (norm3 (nth l pts (0, 0, 0))) 0) with false by (symmetry; apply Reqb_false; lra). reflexivity.
Qed.
Lemma energy_gl : lsum (map (fun x => x * x) gl) = energy_at h g.
Proof.
  rewrite lsum_nth, map_length, gl_len. unfold energy_at. fold pts n. apply rsum_ext. intros l Hl. rewrite (nth_indep _ 0 (0 * 0)) by (rewrite map_length, gl_len; exact Hl).
  rewrite (map_nth (fun x => x * x)), gl_nth by exact Hl. ring.
Qed.
Lemma rE_comp (f : V3 -> R) : (forall s v, f (scal3 s v) = s * f v) ->
  lsum (map f (map (fun ab => scal3 (fst ab) (snd ab)) (combine (map (fun x => x * x) gl) ls))) = rsum n (fun l => at_listener h g l ^ 2 * f (ls_dir h l)).
Proof.
  intros Hs. rewrite weighted_comp; [|exact Hs|rewrite map_length, gl_len, ls_len; reflexivity]. rewrite ls_len. apply rsum_ext. intros l Hl.
  rewrite (nth_indep _ 0 (0 * 0)) by (rewrite map_length, gl_len; exact Hl). rewrite (map_nth (fun x => x * x)), gl_nth by exact Hl. rewrite ls_nth by exact Hl. ring.
Qed.
Lemma rE_eq : energy_at h g <> 0 -> r_E_row ls gl = (Some (energy_vector h g), norm3 (energy_vector h g)).
Proof.
  intros NZ. unfold r_E_row. rewrite energy_gl. replace (Reqb (energy_at h g) 0) with false by (symmetry; apply Reqb_false; exact NZ).
  rewrite vsum_comp, (rE_comp vx), (rE_comp vy), (rE_comp vz) by (intros s [[? ?] ?]; unfold scal3, vx, vy, vz; cbn [fst snd]; ring).
  assert (E : scal3 (1 / energy_at h g) (rsum n (fun l => at_listener h g l ^ 2 * vx (ls_dir h l)), rsum n (fun l => at_listener h g l ^ 2 * vy (ls_dir h l)), rsum n (fun l => at_listener h g l ^ 2 * vz (ls_dir h l))) = energy_vector h g).
  { unfold energy_vector, scal3, vx, vy, vz. cbn [fst snd]. fold pts n. f_equal; [f_equal|]; unfold Rdiv; ring. }
  rewrite E. reflexivity.
Qed.
Lemma rE_eq0 : energy_at h g = 0 -> r_E_row ls gl = (None, 0).
Proof. intros Z. unfold r_E_row. rewrite energy_gl. replace (Reqb (energy_at h g) 0) with true by (symmetry; apply Reqb_true; exact Z). reflexivity. Qed.
Lemma energy_nonneg : 0 <= energy_at h g.
Proof. unfold energy_at. apply rsum_nonneg. intros. apply pow2_ge_0. Qed.
Lemma rE_le1 : energy_at h g <> 0 -> norm3 (energy_vector h g) <= 1.
Proof.
  intros NZ. pose proof (rE_mag_range ls gl) as Q. rewrite (rE_eq NZ) in Q. cbn [snd] in Q. apply Q. intros u Hu. destruct (In_nth ls u ((0, 0, 0) : V3) Hu) as (l & Hl & <-). rewrite ls_len in Hl.
  rewrite ls_nth by exact Hl. unfold norm3. rewrite dir_unit by exact Hl. rewrite sqrt_1. lra.
Qed.
Lemma dot_rE dir : energy_at h g <> 0 -> dot3 dir (energy_vector h g) = rsum n (fun l => at_listener h g l ^ 2 * dot3 dir (ls_dir h l)) / energy_at h g.
Proof.
  intros NZ. unfold energy_vector. fold pts n. rewrite (rsum_ext n (fun l => at_listener h g l ^ 2 * dot3 dir (ls_dir h l)) (fun l => vx dir * (at_listener h g l ^ 2 * vx (ls_dir h l)) + vy dir * (at_listener h g l ^ 2 * vy (ls_dir h l)) + vz dir * (at_listener h g l ^ 2 * vz (ls_dir h l)))).
  - rewrite !rsum_plus, !rsum_scal. generalize (rsum n (fun l => at_listener h g l ^ 2 * vx (ls_dir h l))) (rsum n (fun l => at_listener h g l ^ 2 * vy (ls_dir h l))) (rsum n (fun l => at_listener h g l ^ 2 * vz (ls_dir h l))). intros X Y Z. unfold dot3, vx, vy, vz. cbn [fst snd]. field. exact NZ.
  - intros l _. unfold dot3. ring.
Qed.

Variable dir : V3.
Hypothesis HD : dot3 dir dir = 1.
Let m := perf_measure h dir g.
Lemma sums_ok : pm_amplitude m = lsum g /\ pm_energy m = lsum (map (fun x => x ^ 2) g).
Proof. unfold m, perf_measure. fold ls gl. destruct (r_E_row ls gl). split; reflexivity. Qed.
Lemma silent_ok : energy_at h g = 0 -> pm_spread m = 180 /\ pm_error m = None.
Proof.
  intros Z. unfold m, perf_measure. fold ls gl. rewrite (rE_eq0 Z). cbn [pm_spread pm_error option_map]. split; [|reflexivity].
  unfold clip. rewrite Rmax_left, Rmin_right by lra. rewrite acos_0. field. apply PI_neq0.
Qed.
Lemma clip_id lo hi x : lo <= x <= hi -> clip lo hi x = x.
Proof. intros H. unfold clip. rewrite Rmax_right, Rmin_right by lra. reflexivity. Qed.
Lemma spread_ok : energy_at h g <> 0 -> pm_spread m = degrees (2 * acos (norm3 (energy_vector h g))).
Proof.
  intros NZ. unfold m, perf_measure. fold ls gl. rewrite (rE_eq NZ). cbn [pm_spread]. rewrite clip_id by (split; [apply norm3_nonneg|apply rE_le1; exact NZ]). unfold degrees. field. apply PI_neq0.
Qed.
Let v := energy_vector h g.
Let r := Rmax (1 / 100000000000000) (norm3 v).
Lemma error_eq : energy_at h g <> 0 -> pm_error m = Some (degrees (acos (clip (-1) 1 (dot3 dir v / r)))).
Proof.
  intros NZ. unfold m, perf_measure. fold ls gl. rewrite (rE_eq NZ). cbn [pm_error option_map]. f_equal. unfold degrees. unfold clip_lo. fold v r.
  replace (dot3 dir (scal3 (/ r) v)) with (dot3 dir v / r) by (destruct dir as [[? ?] ?], v as [[? ?] ?]; unfold dot3, scal3, vx, vy, vz, Rdiv; cbn [fst snd]; ring).
  field. apply PI_neq0.
Qed.
Lemma r_pos : 0 < r. Proof. unfold r. pose proof (Rmax_l (1 / 100000000000000) (norm3 v)). lra. Qed.
Lemma dot_r : -1 <= dot3 dir v / r <= 1.
Proof.
  pose proof r_pos as P. assert (ND : norm3 dir = 1) by (unfold norm3; rewrite HD; apply sqrt_1). pose proof (dot3_norms dir v) as A. rewrite ND in A.
  pose proof (dot3_norms dir (scal3 (-1) v)) as B. rewrite ND in B. assert (NV : norm3 (scal3 (-1) v) = norm3 v) by (unfold norm3; f_equal; destruct v as [[? ?] ?]; unfold dot3, scal3, vx, vy, vz; cbn [fst snd]; ring). rewrite NV in B.
  replace (dot3 dir (scal3 (-1) v)) with (- dot3 dir v) in B by (destruct dir as [[? ?] ?], v as [[? ?] ?]; unfold dot3, scal3, vx, vy, vz; cbn [fst snd]; ring).
  pose proof (Rmax_r (1 / 100000000000000) (norm3 v)) as M. fold r in M. split; apply Rmult_le_reg_r with r; try exact P; unfold Rdiv; rewrite Rmult_assoc, Rinv_l by lra; lra.
Qed.
Lemma error_ok : energy_at h g <> 0 -> 1 / 100000000000000 <= norm3 v -> pm_error m = Some (degrees (S_decoder.angle dir v)).
Proof.
  intros NZ Q. rewrite (error_eq NZ), clip_id by apply dot_r. unfold S_decoder.angle. assert (ND : norm3 dir = 1) by (unfold norm3; rewrite HD; apply sqrt_1). rewrite ND, Rmult_1_l.
  unfold r. rewrite Rmax_right by lra. reflexivity.
Qed.
Lemma degrees_le a b : a <= b -> degrees a <= degrees b.
Proof. intros H. unfold degrees, Rdiv. apply Rmult_le_compat_r; [apply Rlt_le, Rinv_0_lt_compat, PI_RGT_0|]. lra. Qed.
Lemma degrees_range a b : 0 <= a <= b -> 0 <= degrees a <= degrees b.
Proof. intros (A & B). split; [|apply degrees_le; exact B]. apply Rle_trans with (degrees 0); [unfold degrees; lra|apply degrees_le; exact A]. Qed.
Lemma ranges_ok : 0 <= pm_spread m <= 180 /\ match pm_error m with Some e => 0 <= e <= 180 | None => energy_at h g = 0 end.
Proof.
  assert (D : degrees PI = 180) by (unfold degrees; field; apply PI_neq0). destruct (Req_dec (energy_at h g) 0) as [Z|NZ].
  - destruct (silent_ok Z) as (-> & ->). split; [lra|exact Z].
  - rewrite (spread_ok NZ), (error_eq NZ). rewrite <- D. split; apply degrees_range.
    + pose proof (acos_range01 (norm3 (energy_vector h g)) ltac:(split; [apply norm3_nonneg|apply rE_le1; exact NZ])). lra.
    + apply acos_bound.
Qed.
(** the energy vector does not leave the cone of the active loudspeakers *)
Lemma cone_ok c : energy_at h g <> 0 -> 0 <= c <= 1 -> (forall l, (l < n)%nat -> nth l g 0 <> 0 -> c <= dot3 dir (ls_dir h l)) ->
  exists e, pm_error m = Some e /\ e <= degrees (acos c).
Proof.
  intros NZ C H. rewrite (error_eq NZ), clip_id by apply dot_r. eexists. split; [reflexivity|]. apply degrees_le. apply acos_decr; [apply dot_r|lra|].
  pose proof r_pos as P. pose proof energy_nonneg as EN. assert (EP : 0 < energy_at h g) by lra.
  assert (X : c <= dot3 dir v).
  { unfold v. rewrite (dot_rE dir NZ). apply Rmult_le_reg_r with (energy_at h g); [exact EP|]. unfold Rdiv. rewrite Rmult_assoc, Rinv_l, Rmult_1_r by lra.
    unfold energy_at at 1. fold pts n. rewrite <- rsum_scal. apply rsum_le. intros l Hl. destruct (Req_dec (nth l g 0) 0) as [G0|G0].
    - unfold at_listener. rewrite G0. unfold Rdiv. rewrite Rmult_0_l. rewrite pow_i by lia. lra.
    - rewrite (Rmult_comm c). apply Rmult_le_compat_l; [apply pow2_ge_0|]. apply H; assumption. }
  assert (R1 : r <= 1). { unfold r. apply Rmax_lub; [lra|]. apply rE_le1. exact NZ. }
  apply Rle_trans with (dot3 dir v); [exact X|]. apply Rmult_le_reg_r with r; [exact P|]. unfold Rdiv. rewrite Rmult_assoc, Rinv_l, Rmult_1_r by lra. assert (0 <= dot3 dir v) by lra. nra.
Qed.
(** one active loudspeaker *)
Lemma single_ok l : (l < n)%nat -> nth l g 0 <> 0 -> (forall j, (j < n)%nat -> j <> l -> nth j g 0 = 0) ->
  pm_amplitude m = nth l g 0 /\ pm_energy m = nth l g 0 ^ 2 /\ pm_spread m = 0 /\ pm_error m = Some (degrees (S_decoder.angle dir (nth l pts (0, 0, 0)))).
Proof.
  intros Hl G1 G0. pose proof (pt_norm l Hl) as PN.
  assert (A0 : forall j, (j < n)%nat -> j <> l -> at_listener h g j = 0) by (intros j Hj NE; unfold at_listener; rewrite G0 by assumption; unfold Rdiv; ring).
  assert (AL : at_listener h g l <> 0). { unfold at_listener, Rdiv. apply Rmult_integral_contrapositive_currified; [exact G1|]. apply Rinv_neq_0_compat. unfold Rpower. pose proof (exp_pos (h_a h * ln (norm3 (nth l (h_points h) (0, 0, 0))))). lra. }
  assert (E : energy_at h g = at_listener h g l ^ 2). { unfold energy_at. fold pts n. apply (rsum_single n l); [exact Hl|]. intros j Hj NE. rewrite A0 by assumption. ring. }
  assert (NZ : energy_at h g <> 0) by (rewrite E; apply pow_nonzero; exact AL).
  assert (V : v = ls_dir h l).
  { unfold v, energy_vector. fold pts n. rewrite E. assert (P : forall f : V3 -> R, rsum n (fun j => at_listener h g j ^ 2 * f (ls_dir h j)) / at_listener h g l ^ 2 = f (ls_dir h l)).
    { intros f. rewrite (rsum_single n l); [field; exact AL|exact Hl|]. intros j Hj NE. rewrite A0 by assumption. ring. }
    rewrite (P vx), (P vy), (P vz). destruct (ls_dir h l) as [[? ?] ?]. reflexivity. }
  assert (NV : norm3 v = 1) by (rewrite V; unfold norm3; rewrite dir_unit by exact Hl; apply sqrt_1).
  destruct sums_ok as (-> & ->). rewrite (spread_ok NZ), (error_ok NZ) by (rewrite NV; lra). fold v. rewrite NV. split; [|split; [|split]].
  - rewrite lsum_nth, HG. apply (rsum_single n l); [exact Hl|]. intros j Hj NE. apply G0; assumption.
  - rewrite lsum_nth, map_length, HG. rewrite (rsum_single n l); [|exact Hl|].
    + rewrite (nth_indep _ 0 (0 ^ 2)) by (rewrite map_length, HG; exact Hl). rewrite (map_nth (fun x => x ^ 2)). reflexivity.
    + intros j Hj NE. rewrite (nth_indep _ 0 (0 ^ 2)) by (rewrite map_length, HG; exact Hj). rewrite (map_nth (fun x => x ^ 2)). rewrite G0 by assumption. ring.
  - rewrite acos_1. unfold degrees. lra.
  - f_equal. f_equal. unfold S_decoder.angle. f_equal. rewrite NV, V. unfold ls_dir. fold pts. set (p := nth l pts (0, 0, 0)) in *.
    replace (dot3 dir (scal3 (/ norm3 p) p)) with (dot3 dir p / norm3 p) by (destruct dir as [[? ?] ?], p as [[? ?] ?]; unfold dot3, scal3, vx, vy, vz, Rdiv; cbn [fst snd]; ring).
    assert (ND : norm3 dir = 1) by (unfold norm3; rewrite HD; apply sqrt_1). rewrite ND. field. lra.
Qed.
End Measures.

(** ** the grid *)
Lemma arange_near a b step x : 0 < step -> a <= x <= b -> exists y, In y (arange a (b + step) step) /\ Rabs (x - y) <= step / 2.
Proof.
  intros S0 (X1 & X2). unfold arange. set (q := (x - a) / step + 1 / 2). set (k := Int_part q). destruct (base_Int_part q) as (K1 & K2). fold k in K1, K2.
  assert (Q0 : 0 <= (x - a) / step) by (apply Rmult_le_pos; [lra|apply Rlt_le, Rinv_0_lt_compat; exact S0]).
  assert (KP : (0 <= k)%Z). { assert (-1 < k)%Z; [|lia]. apply lt_IZR. unfold q in *. lra. }
  assert (XE : x - a = step * ((x - a) / step)) by (field; lra).
  exists (a + INR (Z.to_nat k) * step). assert (IK : INR (Z.to_nat k) = IZR k) by (rewrite INR_IZR_INZ, Z2Nat.id by exact KP; reflexivity). rewrite IK. split.
  - apply in_map_iff. exists (Z.to_nat k). rewrite IK. split; [reflexivity|]. apply in_seq. split; [lia|]. cbn [Nat.add]. apply Z2Nat.inj_lt; [exact KP| |].
    + assert (LT : (k < zceil ((b + step - a) / step))%Z); [|lia]. apply zceil_lt_iff. apply Rle_lt_trans with q; [exact K1|]. unfold q. apply Rlt_le_trans with ((x - a) / step + 1); [lra|].
      replace ((b + step - a) / step) with ((b - a) / step + 1) by (field; lra). apply Rplus_le_compat_r. apply Rmult_le_compat_r; [apply Rlt_le, Rinv_0_lt_compat; exact S0|lra].
    + apply zceil_lt_iff. apply Rle_lt_trans with q; [exact K1|]. unfold q. apply Rlt_le_trans with ((x - a) / step + 1); [lra|].
      replace ((b + step - a) / step) with ((b - a) / step + 1) by (field; lra). apply Rplus_le_compat_r. apply Rmult_le_compat_r; [apply Rlt_le, Rinv_0_lt_compat; exact S0|lra].
  - replace (x - (a + IZR k * step)) with (step * (q - 1 / 2 - IZR k)) by (unfold q; field; lra). rewrite Rabs_mult, (Rabs_pos_eq step) by lra. replace (step / 2) with (step * (1 / 2)) by field. apply Rmult_le_compat_l; [lra|].
    apply Rabs_le. lra.
Qed.
Lemma arange_in a b step y : 0 < step -> In y (arange a b step) -> a <= y < b.
Proof.
  intros S0 H. unfold arange in H. apply in_map_iff in H. destruct H as (k & <- & K). apply in_seq in K. destruct K as (_ & K). cbn [Nat.add] in K.
  pose proof (pos_INR k) as P. assert (KZ : (Z.of_nat k < zceil ((b - a) / step))%Z) by lia. apply zceil_lt_iff in KZ. rewrite <- INR_IZR_INZ in KZ.
  assert (INR k * step < b - a). { apply Rmult_lt_reg_r with (/ step); [apply Rinv_0_lt_compat; exact S0|]. rewrite Rmult_assoc, Rinv_r by lra. unfold Rdiv in KZ. lra. }
  nra.
Qed.
Lemma grid_ok sa se : 0 < sa -> 0 < se ->
  (forall a z, - PI <= a <= PI -> 0 <= z <= PI -> exists ph th, In (ph, th) (perf_grid sa se) /\ Rabs (a - ph) <= sa * PI / 180 / 2 /\ Rabs (z - th) <= se * PI / 180 / 2) /\
  (forall ph th, In (ph, th) (perf_grid sa se) -> - PI <= ph < PI + sa * PI / 180 /\ 0 <= th < PI + se * PI / 180).
Proof.
  intros A E. pose proof PI_RGT_0 as P. unfold perf_grid, np_deg2rad.
  assert (DA : sa * (PI / 180) = sa * PI / 180) by field. assert (DE : se * (PI / 180) = se * PI / 180) by field. rewrite ?DA, ?DE.
  assert (0 < sa * PI / 180) by (apply Rdiv_lt_0_compat; nra). assert (0 < se * PI / 180) by (apply Rdiv_lt_0_compat; nra). split.
  - intros a z HA HZ. destruct (arange_near (- PI) PI (sa * PI / 180) a) as (ph & I1 & D1); auto. destruct (arange_near 0 PI (se * PI / 180) z) as (th & I2 & D2); auto.
    exists ph, th. split; [|split; assumption]. apply in_flat_map. exists th. split; [exact I2|]. apply in_map_iff. exists ph. auto.
  - intros ph th HI. apply in_flat_map in HI. destruct HI as (t & I2 & I1). apply in_map_iff in I1. destruct I1 as (p & [= <- <-] & I1). apply arange_in in I1; [|assumption]. apply arange_in in I2; [|assumption]. auto.
Qed.
