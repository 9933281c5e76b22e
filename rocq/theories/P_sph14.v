(** Spherical Bessel functions: derivatives, differential equation, cross product. *)
From Verif Require Import Base M_utils M_sig M_process M_sph M_sph2 S_sph2 P_sph1.
Open Scope R_scope.

Lemma dpl_local f g x d e : 0 < e -> (forall y, Rabs (y - x) < e -> f y = g y) -> derivable_pt_lim f x d -> derivable_pt_lim g x d.
Proof.
  intros He E D eps Heps. destruct (D eps Heps) as [del Hd].
  assert (M : 0 < Rmin del e) by (apply Rmin_pos; [apply cond_pos|exact He]).
  exists (mkposreal _ M). cbn [pos]. intros h H0 Hh.
  assert (h_del : Rabs h < del) by (eapply Rlt_le_trans; [exact Hh|apply Rmin_l]).
  assert (h_e : Rabs h < e) by (eapply Rlt_le_trans; [exact Hh|apply Rmin_r]).
  rewrite <- (E (x + h)) by (replace (x + h - x) with h by ring; exact h_e).
  rewrite <- (E x) by (rewrite Rminus_diag_eq, Rabs_R0 by reflexivity; exact He).
  apply Hd; assumption.
Qed.
Lemma dpl_away f g z d : z <> 0 -> (forall y, y <> 0 -> f y = g y) -> derivable_pt_lim f z d -> derivable_pt_lim g z d.
Proof.
  intros Hz E. apply dpl_local with (Rabs z); [apply Rabs_pos_lt; exact Hz|].
  intros y Hy. apply E. intros ->. rewrite Rminus_0_l, Rabs_Ropp in Hy. lra.
Qed.

Section Bessel.
Variables f0 f1 : R -> R.
Hypothesis d0 : forall z, z <> 0 -> derivable_pt_lim f0 z (- f1 z).
Hypothesis d1 : forall z, z <> 0 -> derivable_pt_lim f1 z (f0 z - 2 / z * f1 z).
Lemma bessel_snd n z : snd (bessel_pair f0 f1 n z) = bessel f0 f1 (S n) z.
Proof. unfold bessel. cbn [bessel_pair]. destruct (bessel_pair f0 f1 n z). reflexivity. Qed.
Lemma bessel_rec n z : bessel f0 f1 (S (S n)) z = (2 * INR n + 3) / z * bessel f0 f1 (S n) z - bessel f0 f1 n z.
Proof.
  rewrite <- !bessel_snd. unfold bessel. cbn [bessel_pair]. destruct (bessel_pair f0 f1 n z) as [a b]. cbn [fst snd].
  rewrite plus_INR, mult_INR. simpl (INR 2). simpl (INR 3). replace (1 + 1 + 1) with 3 by ring. replace (1 + 1) with 2 by ring. reflexivity.
Qed.
Lemma d_inv c z : z <> 0 -> derivable_pt_lim (fun z => c / z) z (- c / z ^ 2).
Proof.
  intros Hz. pose proof (derivable_pt_lim_div (fct_cte c) id z 0 1 (derivable_pt_lim_const c z) (derivable_pt_lim_id z) Hz) as K.
  eapply dpl_val; [|exact K]. unfold fct_cte, id, Rsqr. field. exact Hz.
Qed.
Lemma bessel_deriv n : forall z, z <> 0 ->
  derivable_pt_lim (bessel f0 f1 n) z (INR n / z * bessel f0 f1 n z - bessel f0 f1 (S n) z) /\
  derivable_pt_lim (bessel f0 f1 (S n)) z (bessel f0 f1 n z - (INR n + 2) / z * bessel f0 f1 (S n) z).
Proof.
  induction n as [|n IH]; intros z Hz.
  - split.
    + eapply dpl_val; [|exact (d0 z Hz)]. cbn [bessel bessel_pair fst snd]. unfold bessel. cbn [bessel_pair fst snd]. simpl INR. field. exact Hz.
    + eapply dpl_val; [|exact (d1 z Hz)]. unfold bessel. cbn [bessel_pair fst snd]. simpl INR. field. exact Hz.
  - destruct (IH z Hz) as [A B]. split.
    + eapply dpl_val; [|exact B]. rewrite bessel_rec, S_INR. field. exact Hz.
    + apply dpl_ext with (fun z => (2 * INR n + 3) / z * bessel f0 f1 (S n) z - bessel f0 f1 n z); [intros y; rewrite bessel_rec; reflexivity|].
      pose proof (derivable_pt_lim_minus _ _ z _ _ (derivable_pt_lim_mult _ _ z _ _ (d_inv (2 * INR n + 3) z Hz) B) A) as K.
      eapply dpl_val; [|exact K]. cbn beta. rewrite bessel_rec, S_INR. field. exact Hz.
Qed.
Lemma bessel_d_deriv n z : z <> 0 -> derivable_pt_lim (bessel f0 f1 n) z (bessel_d f0 f1 n z).
Proof. intros Hz. exact (proj1 (bessel_deriv n z Hz)). Qed.
Lemma bessel_solves n : solves_bessel n (bessel f0 f1 n) (bessel_d f0 f1 n).
Proof.
  exists (fun z => - INR n / z ^ 2 * bessel f0 f1 n z + INR n / z * bessel_d f0 f1 n z - (bessel f0 f1 n z - (INR n + 2) / z * bessel f0 f1 (S n) z)).
  intros z Hz. split; [apply bessel_d_deriv; exact Hz|]. split.
  - pose proof (derivable_pt_lim_minus _ _ z _ _ (derivable_pt_lim_mult _ _ z _ _ (d_inv (INR n) z Hz) (bessel_d_deriv n z Hz)) (proj2 (bessel_deriv n z Hz))) as K.
    eapply dpl_val; [|exact K]. cbn beta. reflexivity.
  - unfold bessel_d. field. exact Hz.
Qed.
End Bessel.

Lemma d_sin_over (k : nat) z : z <> 0 -> derivable_pt_lim (fun z => sin z / z ^ k) z (cos z / z ^ k - INR k * sin z / z ^ (S k)).
Proof.
  intros Hz. pose proof (derivable_pt_lim_div sin (fun y => y ^ k) z _ _ (derivable_pt_lim_sin z) (derivable_pt_lim_pow z k) (pow_nonzero z k Hz)) as K.
  eapply dpl_val; [|exact K]. unfold Rsqr. destruct k as [|k]; cbn [pred pow]; [simpl INR; field; exact Hz|]. rewrite S_INR. field. split; [apply pow_nonzero; exact Hz|exact Hz].
Qed.
Lemma d_cos_over (k : nat) z : z <> 0 -> derivable_pt_lim (fun z => cos z / z ^ k) z (- sin z / z ^ k - INR k * cos z / z ^ (S k)).
Proof.
  intros Hz. pose proof (derivable_pt_lim_div cos (fun y => y ^ k) z _ _ (derivable_pt_lim_cos z) (derivable_pt_lim_pow z k) (pow_nonzero z k Hz)) as K.
  eapply dpl_val; [|exact K]. unfold Rsqr. destruct k as [|k]; cbn [pred pow]; [simpl INR; field; exact Hz|]. rewrite S_INR. field. split; [apply pow_nonzero; exact Hz|exact Hz].
Qed.
Lemma d_j0 z : z <> 0 -> derivable_pt_lim j0 z (- j1 z).
Proof.
  intros Hz. apply dpl_ext with (fun z => sin z / z ^ 1); [intros y; unfold j0; rewrite pow_1; reflexivity|].
  eapply dpl_val; [|exact (d_sin_over 1 z Hz)]. unfold j1. simpl INR. field. exact Hz.
Qed.
Lemma d_y0 z : z <> 0 -> derivable_pt_lim y0 z (- y1 z).
Proof.
  intros Hz. apply dpl_ext with (fun z => -1 * (cos z / z ^ 1)); [intros y; unfold y0; rewrite pow_1; unfold Rdiv; ring|].
  eapply dpl_val; [|exact (derivable_pt_lim_scal _ (-1) z _ (d_cos_over 1 z Hz))]. unfold y1. simpl INR. field. exact Hz.
Qed.
Lemma d_j1 z : z <> 0 -> derivable_pt_lim j1 z (j0 z - 2 / z * j1 z).
Proof.
  intros Hz. apply dpl_ext with (fun z => sin z / z ^ 2 - cos z / z ^ 1); [intros y; unfold j1; rewrite pow_1; reflexivity|].
  eapply dpl_val; [|exact (derivable_pt_lim_minus _ _ z _ _ (d_sin_over 2 z Hz) (d_cos_over 1 z Hz))]. unfold j0, j1. simpl INR. field. exact Hz.
Qed.
Lemma d_y1 z : z <> 0 -> derivable_pt_lim y1 z (y0 z - 2 / z * y1 z).
Proof.
  intros Hz. apply dpl_ext with (fun z => -1 * (cos z / z ^ 2) - sin z / z ^ 1); [intros y; unfold y1; rewrite pow_1; unfold Rdiv; ring|].
  eapply dpl_val; [|exact (derivable_pt_lim_minus _ _ z _ _ (derivable_pt_lim_scal _ (-1) z _ (d_cos_over 2 z Hz)) (d_sin_over 1 z Hz))]. unfold y0, y1. simpl INR. field. exact Hz.
Qed.
Notation J := (bessel j0 j1). Notation Y := (bessel y0 y1).
Lemma cross n z : z <> 0 -> J (S n) z * Y n z - J n z * Y (S n) z = 1 / z ^ 2.
Proof.
  intros Hz. induction n as [|n IH].
  - unfold bessel, j0, j1, y0, y1. cbn [bessel_pair fst snd]. pose proof (sin2_cos2 z) as S. unfold Rsqr in S.
    replace (1 / z ^ 2) with ((sin z * sin z + cos z * cos z) / z ^ 2) by (rewrite S; reflexivity). field. exact Hz.
  - rewrite !bessel_rec, <- IH. ring.
Qed.
Lemma wronski n z : z <> 0 -> J n z * bessel_d y0 y1 n z - bessel_d j0 j1 n z * Y n z = 1 / z ^ 2.
Proof. intros Hz. rewrite <- (cross n z Hz). unfold bessel_d. ring. Qed.

(** |j_n| <= z^n / (2n+1)!! *)
Fixpoint g2 (n : nat) (z : R) : R * R :=
  match n with O => (sin z, sin z - z * cos z) | S m => let (a, b) := g2 m z in (b, (2 * INR m + 3) * b - z ^ 2 * a) end.
Definition gj n z := fst (g2 n z).
Lemma g2_snd n z : snd (g2 n z) = gj (S n) z.
Proof. unfold gj. cbn [g2]. destruct (g2 n z). reflexivity. Qed.
Lemma gj_rec n z : gj (S (S n)) z = (2 * INR n + 3) * gj (S n) z - z ^ 2 * gj n z.
Proof. rewrite <- !g2_snd. unfold gj. cbn [g2]. destruct (g2 n z) as [a b]. reflexivity. Qed.
Lemma gj_bessel z : z <> 0 -> forall n, gj n z = z ^ (S n) * J n z /\ gj (S n) z = z ^ (S (S n)) * J (S n) z.
Proof.
  intros Hz. induction n as [|n [A B]].
  - unfold gj, bessel, j0, j1. cbn [g2 bessel_pair fst snd]. split; field; exact Hz.
  - split; [exact B|]. rewrite gj_rec, A, B, bessel_rec. cbn [pow]. field. exact Hz.
Qed.
Lemma gj_0 n : gj n 0 = 0 /\ gj (S n) 0 = 0.
Proof.
  induction n as [|n [A B]]; [unfold gj; cbn [g2 fst]; rewrite sin_0; split; ring|].
  split; [exact B|]. rewrite gj_rec, A, B. ring.
Qed.
Lemma gj_deriv n : forall z, derivable_pt_lim (gj (S n)) z (z * gj n z) /\ derivable_pt_lim (gj (S (S n))) z (z * gj (S n) z).
Proof.
  induction n as [|n IH]; intros z.
  - assert (D1 : derivable_pt_lim (gj 1) z (z * sin z)).
    { apply dpl_ext with (fun z => sin z - z * cos z); [intros y; reflexivity|].
      pose proof (derivable_pt_lim_minus _ _ z _ _ (derivable_pt_lim_sin z) (derivable_pt_lim_mult id cos z _ _ (derivable_pt_lim_id z) (derivable_pt_lim_cos z))) as K.
      eapply dpl_val; [|exact K]. unfold id. ring. }
    split; [exact D1|].
    apply dpl_ext with (fun z => 3 * gj 1 z - z ^ 2 * sin z); [intros y; rewrite gj_rec; simpl INR; unfold gj at 3; cbn [g2 fst]; ring|].
    pose proof (derivable_pt_lim_minus _ _ z _ _ (derivable_pt_lim_scal _ 3 z _ D1) (derivable_pt_lim_mult (fun y => y ^ 2) sin z _ _ (derivable_pt_lim_pow z 2) (derivable_pt_lim_sin z))) as K.
    eapply dpl_val; [|exact K]. unfold gj. cbn [g2 fst pred]. simpl INR. ring.
  - destruct (IH z) as [A B]. split; [exact B|].
    apply dpl_ext with (fun z => (2 * INR (S n) + 3) * gj (S (S n)) z - z ^ 2 * gj (S n) z); [intros y; rewrite (gj_rec (S n)); reflexivity|].
    pose proof (derivable_pt_lim_minus _ _ z _ _ (derivable_pt_lim_scal _ (2 * INR (S n) + 3) z _ B) (derivable_pt_lim_mult (fun y => y ^ 2) _ z _ _ (derivable_pt_lim_pow z 2) A)) as K.
    eapply dpl_val; [|exact K]. cbn [pred]. rewrite S_INR. simpl (INR 2). rewrite (gj_rec n). ring.
Qed.
Lemma odds_pos n : 0 < odds n.
Proof. induction n as [|n IH]; cbn [odds]; [lra|]. apply Rmult_lt_0_compat; [apply lt_0_INR; lia|exact IH]. Qed.
Lemma mono_le (f df : R -> R) z : 0 <= z -> f 0 = 0 -> (forall c, derivable_pt_lim f c (df c)) -> (forall c, 0 <= c -> 0 <= df c) -> 0 <= f z.
Proof.
  intros Hz F0 D P. destruct (Req_dec z 0) as [->|NZ]; [lra|].
  destruct (MVT_cor2 f df 0 z ltac:(lra) (fun c _ => D c)) as (c & E & Hc). pose proof (P c ltac:(lra)). rewrite F0 in E.
  replace (f z) with (df c * z) by lra. apply Rmult_le_pos; lra.
Qed.
Lemma gj_bound n : forall z, 0 <= z -> - (z ^ (2 * n + 1) / odds n) <= gj n z <= z ^ (2 * n + 1) / odds n.
Proof.
  induction n as [|n IH]; intros z Hz.
  - cbn [odds Nat.mul Nat.add]. rewrite pow_1. unfold gj. cbn [g2 fst].
    assert (A : 0 <= z - sin z).
    { apply (mono_le (fun z => z - sin z) (fun z => 1 - cos z)); [exact Hz|rewrite sin_0; ring| |].
      - intros c. apply (derivable_pt_lim_minus id sin); [apply derivable_pt_lim_id|apply derivable_pt_lim_sin].
      - intros c _. pose proof (COS_bound c). lra. }
    assert (B : 0 <= z + sin z).
    { apply (mono_le (fun z => z + sin z) (fun z => 1 + cos z)); [exact Hz|rewrite sin_0; ring| |].
      - intros c. apply (derivable_pt_lim_plus id sin); [apply derivable_pt_lim_id|apply derivable_pt_lim_sin].
      - intros c _. pose proof (COS_bound c). lra. }
    lra.
  - pose proof (odds_pos n) as Po. pose proof (odds_pos (S n)) as Ps.
    assert (N : 0 < INR (2 * n + 3)) by (apply lt_0_INR; lia).
    assert (DP : forall c, derivable_pt_lim (fun z => / odds (S n) * z ^ (2 * S n + 1)) c (c * (c ^ (2 * n + 1) / odds n))).
    { intros c. eapply dpl_val; [|exact (derivable_pt_lim_scal _ (/ odds (S n)) c _ (derivable_pt_lim_pow c (2 * S n + 1)))].
      replace (2 * S n + 1)%nat with (S (2 * n + 2)) by lia. cbn [pred odds]. replace (S (2 * n + 2)) with (2 * n + 3)%nat by lia.
      replace (2 * n + 2)%nat with (S (2 * n + 1)) by lia. cbn [pow]. field. lra. }
    assert (G0 : gj (S n) 0 = 0) by apply gj_0.
    assert (A : 0 <= / odds (S n) * z ^ (2 * S n + 1) - gj (S n) z).
    { apply (mono_le (fun z => / odds (S n) * z ^ (2 * S n + 1) - gj (S n) z) (fun c => c * (c ^ (2 * n + 1) / odds n) - c * gj n c)); [exact Hz| | |].
      - rewrite G0, pow_i by lia. ring.
      - intros c. apply (derivable_pt_lim_minus (fun z => / odds (S n) * z ^ (2 * S n + 1)) (gj (S n))); [apply DP|apply gj_deriv].
      - intros c Hc. destruct (IH c Hc). rewrite <- Rmult_minus_distr_l. apply Rmult_le_pos; lra. }
    assert (B : 0 <= / odds (S n) * z ^ (2 * S n + 1) + gj (S n) z).
    { apply (mono_le (fun z => / odds (S n) * z ^ (2 * S n + 1) + gj (S n) z) (fun c => c * (c ^ (2 * n + 1) / odds n) + c * gj n c)); [exact Hz| | |].
      - rewrite G0, pow_i by lia. ring.
      - intros c. apply (derivable_pt_lim_plus (fun z => / odds (S n) * z ^ (2 * S n + 1)) (gj (S n))); [apply DP|apply gj_deriv].
      - intros c Hc. destruct (IH c Hc). rewrite <- Rmult_plus_distr_l. apply Rmult_le_pos; lra. }
    unfold Rdiv. lra.
Qed.
Lemma j_bound n z : 0 < z -> Rabs (J n z) <= z ^ n / odds n.
Proof.
  intros Hz. pose proof (gj_bound n z ltac:(lra)) as B. rewrite (proj1 (gj_bessel z ltac:(lra) n)) in B.
  assert (P : 0 < z ^ S n) by (apply pow_lt; exact Hz).
  replace (2 * n + 1)%nat with (S n + n)%nat in B by lia. rewrite pow_add in B.
  unfold Rdiv in *. rewrite Rmult_assoc in B. set (q := z ^ n * / odds n) in *. clearbody q.
  apply Rabs_le. split; apply Rmult_le_reg_l with (z ^ S n); lra.
Qed.
