(** Butterworth band-pass filters of order 2: the power gain. *)
From Coq Require Import Lra Lia Ring.
From Verif Require Import Base BaseFacts M_utils M_sig M_sph0 M_sph M_parsa3 M_process3 S_process3 M_zp S_zp P_lfilter P_cplx P_zp1 S_process4 S_butter M_process M_process4 P_ff3 P_ff5 P_but1 P_but2.
Open Scope R_scope.

Lemma power_roots a l t : nth 0 a 0 <> 0 -> all_roots a l -> power a t = nth 0 a 0 ^ 2 * fold_right (fun r acc => nrm (csub2 (cos t, sin t) r) * acc) 1 l.
Proof.
  intros A [L P]. assert (NE : a <> []) by (destruct a; [cbn in A; lra|discriminate]). rewrite power_pc. pose proof (poly_resp a t NE) as E. apply (f_equal cabs) in E. rewrite cabs_mul, cabs_pow, unit_abs, pow1, Rmult_1_l, P, cscal_mul, cabs_mul, cabs_cre in E.
  assert (Q : pc a t ^ 2 + ps a t ^ 2 = cabs (pc a t, - ps a t) * cabs (pc a t, - ps a t)) by (rewrite cabs_sq; cbn [fst snd]; ring). rewrite Q, E. replace (nth 0 a 0 ^ 2) with (Rabs (nth 0 a 0) ^ 2) by apply pow2_abs.
  replace (Rabs (nth 0 a 0) * cabs (product l (cos t, sin t)) * (Rabs (nth 0 a 0) * cabs (product l (cos t, sin t)))) with (Rabs (nth 0 a 0) ^ 2 * cabs (product l (cos t, sin t)) ^ 2) by ring. f_equal. clear.
  induction l as [|r l IH]; [cbn [fold_right product]; unfold product; cbn [fold_right]; rewrite <- nrm_abs; unfold nrm; cbn [fst snd]; ring|]. cbn [fold_right]. rewrite <- IH. unfold product at 1. cbn [fold_right]. rewrite cabs_mul. rewrite nrm_abs. unfold csub2, product. ring.
Qed.
Lemma roots_zeros k : k <> 0 -> all_roots (map (fun c => k * c) [1; 0; -2; 0; 1]) [(1, 0); (1, 0); (-1, 0); (-1, 0)].
Proof. intros K. split; [reflexivity|]. intros [u v]. unfold polynomial, product. cbn. unfold csum, cscal, cmul. cbn. f_equal; ring. Qed.
Lemma half_angle t : (cos t, sin t) = (cos (t / 2) ^ 2 - sin (t / 2) ^ 2, 2 * sin (t / 2) * cos (t / 2)) /\ sin (t / 2) ^ 2 + cos (t / 2) ^ 2 = 1.
Proof.
  split.
  - replace t with (2 * (t / 2)) at 1 2 by field. rewrite cos_2a, sin_2a. f_equal; ring.
  - pose proof (sin2_cos2 (t / 2)) as H. unfold Rsqr in H. lra.
Qed.
Record design (w1 w2 : R) (k : R) (p q : C2) (b a : list R) (l : list sos) : Prop := {
  d_k : 0 < k;
  d_b : b = [k; 0; - 2 * k; 0; k];
  d_a : a = times [1; - 2 * fst p; nrm p] [1; - 2 * fst q; nrm q];
  d_l : l = pair_sos k p q;
  d_p : cabs p < 1;
  d_q : cabs q < 1;
  d_np : nrm p <> 0;
  d_nq : nrm q <> 0;
  d_ba : butter_ba w1 w2 = Ok (b, a);
  d_sos : butter_sos w1 w2 = Ok l;
  d_pos : forall t, 0 < power a t;
  d_gain : forall t, power b t / power a t = band_gain w1 w2 t }.
Lemma butter_design w1 w2 : 0 < w1 -> w1 < w2 -> w2 < 1 -> exists k p q b a l, design w1 w2 k p q b a l.
Proof.
  intros A B C. destruct (butter_form w1 w2 A B C) as (h & s & s' & HS & HP & AN & E). set (T1 := tan (PI * w1 / 2)) in *. set (T2 := tan (PI * w2 / 2)) in *. assert (P1 : 0 < T1) by (apply tan_range; lra). assert (P2 : T1 < T2) by (apply tan_order; lra). destruct (an_left _ _ _ _ AN) as [L1 L2]. destruct (an_im _ _ _ _ AN) as [I1 I2].
  set (N1 := nrm (csub2 (c_of 4) s)) in *. set (N2 := nrm (csub2 (c_of 4) s')) in *. assert (N10 : 0 < N1) by (apply nrm_pos; left; unfold csub2, c_of; cbn [fst snd]; lra). assert (N20 : 0 < N2) by (apply nrm_pos; left; unfold csub2, c_of; cbn [fst snd]; lra). set (k := 256 * (T2 - T1) ^ 2 / (N1 * N2)) in *. assert (K0 : 0 < k) by (unfold k; apply Rdiv_lt_0_compat; [apply Rmult_lt_0_compat; [lra|apply pow_lt; lra]|apply Rmult_lt_0_compat; assumption]).
  set (p := bilinear1 s) in *. set (q := bilinear1 s') in *. pose proof (bil_inside s L1) as IP. pose proof (bil_inside s' L2) as IQ. pose proof (bil_im s L1 I1) as NP. pose proof (bil_im s' L2 I2) as NQ. fold p in IP, NP. fold q in IQ, NQ.
  set (a := times [1; - 2 * fst p; nrm p] [1; - 2 * fst q; nrm q]). pose proof (roots_two_pairs p q) as RT. fold a in RT. assert (A0 : nth 0 a 0 = 1) by (unfold a, times; cbn; ring).
  assert (EB : map (fun c => k * c) [1; 0; -2; 0; 1] = [k; 0; - 2 * k; 0; k]) by (cbn; list_ring).
  assert (PA : forall t, power a t = 256 * ((16 * (T1 * T2) * cos (t / 2) ^ 2 - 16 * sin (t / 2) ^ 2) ^ 4 + 4 * (8 * h * sin (t / 2) * cos (t / 2)) ^ 4) / (N1 ^ 2 * N2 ^ 2)).
  { intros t. rewrite (power_roots a _ t ltac:(rewrite A0; lra) RT), A0. destruct (half_angle t) as [HA SC]. rewrite HA. set (n := sin (t / 2)) in *. set (c := cos (t / 2)) in *. rewrite <- (four_dist _ h s s' n c AN). cbn [fold_right].
    pose proof (bil_dist s n c L1 SC) as D1. pose proof (bil_dist s' n c L2 SC) as D2. pose proof (bil_dist (star s) n c L1 SC) as D1'. pose proof (bil_dist (star s') n c L2 SC) as D2'. rewrite bil_star in D1', D2'. fold p N1 in D1. fold q N2 in D2. fold p in D1'. fold q in D2'.
    assert (M1 : nrm (csub2 (c_of 4) (star s)) = N1) by (unfold N1, nrm, csub2, c_of, star; cbn [fst snd]; ring). assert (M2 : nrm (csub2 (c_of 4) (star s')) = N2) by (unfold N2, nrm, csub2, c_of, star; cbn [fst snd]; ring). rewrite M1 in D1'. rewrite M2 in D2'. unfold star in D1', D2'. cbn [fst snd] in D1', D2'. replace (4 * n - - snd s * c) with (4 * n + snd s * c) in D1' by ring. replace (4 * n - - snd s' * c) with (4 * n + snd s' * c) in D2' by ring.
    set (X1 := nrm (csub2 (c ^ 2 - n ^ 2, 2 * n * c) p)) in *. set (X2 := nrm (csub2 (c ^ 2 - n ^ 2, 2 * n * c) q)) in *. set (X1' := nrm (csub2 (c ^ 2 - n ^ 2, 2 * n * c) (fst p, - snd p))) in *. set (X2' := nrm (csub2 (c ^ 2 - n ^ 2, 2 * n * c) (fst q, - snd q))) in *.
    apply (Rmult_eq_reg_r (N1 ^ 2 * N2 ^ 2)); [|apply Rgt_not_eq; apply Rmult_lt_0_compat; apply pow_lt; assumption].
    replace (1 ^ 2 * (X1 * (X1' * (X2 * (X2' * 1)))) * (N1 ^ 2 * N2 ^ 2)) with ((X1 * N1) * (X1' * N1) * ((X2 * N2) * (X2' * N2))) by ring. rewrite D1, D1', D2, D2'. field. split; lra. }
  assert (PB : forall t, power [k; 0; - 2 * k; 0; k] t = k ^ 2 * (256 * (sin (t / 2) * cos (t / 2)) ^ 4)).
  { intros t. rewrite <- EB. rewrite (power_roots _ [(1, 0); (1, 0); (-1, 0); (-1, 0)] t) by (first [apply roots_zeros; lra|cbn; lra]). destruct (half_angle t) as [HA SC]. rewrite HA. set (n := sin (t / 2)) in *. set (c := cos (t / 2)) in *. cbn [map nth fold_right].
    assert (Z1 : nrm (csub2 (c ^ 2 - n ^ 2, 2 * n * c) (1, 0)) = 4 * n ^ 2). { unfold nrm, csub2. cbn [fst snd]. replace (c ^ 2 - n ^ 2 - 1) with (- 2 * n ^ 2) by lra. replace ((2 * n * c - 0) ^ 2) with (4 * n ^ 2 * c ^ 2) by ring. replace (c ^ 2) with (1 - n ^ 2) by lra. ring. }
    assert (Z2 : nrm (csub2 (c ^ 2 - n ^ 2, 2 * n * c) (-1, 0)) = 4 * c ^ 2). { unfold nrm, csub2. cbn [fst snd]. replace (c ^ 2 - n ^ 2 - -1) with (2 * c ^ 2) by lra. replace ((2 * n * c - 0) ^ 2) with (4 * n ^ 2 * c ^ 2) by ring. replace (n ^ 2) with (1 - c ^ 2) by lra. ring. }
    rewrite Z1, Z2. ring. }
  assert (BA : butter_ba w1 w2 = Ok ([k; 0; - 2 * k; 0; k], a)). { unfold butter_ba. rewrite E. cbn [bind zpk_z zpk_p zpk_k]. rewrite real_zeros, EB. unfold star. rewrite real_two_pairs. reflexivity. }
  assert (PP : forall t, 0 < power a t). { intros t. assert (exists rho, rho < 1 /\ cabs p < rho /\ cabs q < rho) as (rho & R1 & R2 & R3). { exists ((1 + Rmax (cabs p) (cabs q)) / 2). pose proof (Rmax_l (cabs p) (cabs q)). pose proof (Rmax_r (cabs p) (cabs q)). assert (Rmax (cabs p) (cabs q) < 1) by (apply Rmax_lub_lt; assumption). lra. }
    eapply Rlt_le_trans; [|apply (power_lower a _ rho t ltac:(rewrite A0; lra) RT R1)]; [apply pow_lt; rewrite A0, Rabs_R1; apply Rmult_lt_0_compat; [lra|apply pow_lt; lra]|]. assert (ST : forall z, cabs (fst z, - snd z) = cabs z) by (intros z; unfold cabs; cbn [fst snd]; f_equal; ring). intros z [<-|[<-|[<-|[<-|[]]]]]; rewrite ?ST; assumption. }
  exists k, p, q, [k; 0; - 2 * k; 0; k], a, (pair_sos k p q). constructor; try assumption; try reflexivity.
  - unfold butter_sos. rewrite E. reflexivity.
  - intros t. specialize (PP t). rewrite PA in PP. rewrite PA, PB. unfold band_gain. fold T1 T2. set (n := sin (t / 2)) in *. set (c := cos (t / 2)) in *. set (D := T2 - T1) in *.
    replace (4 * (8 * h * n * c) ^ 4) with (4 * 4096 * (h ^ 2) ^ 2 * (n * c) ^ 4) in * by ring. rewrite HS in *. set (u := n ^ 2 - T1 * T2 * c ^ 2). replace ((16 * (T1 * T2) * c ^ 2 - 16 * n ^ 2) ^ 4) with (65536 * u ^ 4) in * by (unfold u; ring). unfold k.
    assert (Q : u ^ 4 + (D * n * c) ^ 4 <> 0). { intros Q. assert (Z : 65536 * u ^ 4 + 4 * 4096 * (2 * D ^ 2) ^ 2 * (n * c) ^ 4 = 0) by (replace (65536 * u ^ 4 + 4 * 4096 * (2 * D ^ 2) ^ 2 * (n * c) ^ 4) with (65536 * (u ^ 4 + (D * n * c) ^ 4)) by ring; rewrite Q; ring). rewrite Z in PP. unfold Rdiv in PP. rewrite Rmult_0_r, Rmult_0_l in PP. lra. }
    replace (65536 * u ^ 4 + 4 * 4096 * (2 * D ^ 2) ^ 2 * (n * c) ^ 4) with (65536 * (u ^ 4 + (D * n * c) ^ 4)) by ring. set (V4 := u ^ 4 + (D * n * c) ^ 4) in *. field. repeat split; lra.
Qed.
