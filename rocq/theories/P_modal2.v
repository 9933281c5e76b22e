(** The cardioid and the max-rE beam. *)
From Verif Require Import Base BaseFacts M_utils M_sig M_sph0 M_sph S_sph P_sph1 P_sph3 P_sph12 S_parsa P_gl1 P_gl2 P_gl3 S_modal P_modal.
Open Scope R_scope.
Local Arguments eval_legendre : simpl never.

(** ** cardioid *)
Definition cf (N n : nat) : R := if Nat.leb n N then INR (fact N) * INR (fact N) / (INR (fact (N + n + 1)) * INR (fact (N - n))) else 0.
Lemma cf_step N n : (2 * INR n + 1) * cf (S N) n * 2 = (2 * INR n + 1) * cf N n + INR n * cf N (pred n) + (INR n + 1) * cf N (S n).
Proof.
  set (F := fun k => INR (fact k)). assert (FP : forall k, F k <> 0) by (intros; apply INR_fact_neq_0).
  assert (FS : forall k, F (S k) = (INR k + 1) * F k) by (intros; unfold F; apply fact_S_INR).
  pose proof (pos_INR N) as PN. pose proof (pos_INR n) as Pn.
  unfold cf. fold (F N) (F (S N)) (F (S N + n + 1)%nat) (F (S N - n)%nat) (F (N + n + 1)%nat) (F (N - n)%nat) (F (N + S n + 1)%nat) (F (N - S n)%nat) (F (N + pred n + 1)%nat) (F (N - pred n)%nat).
  destruct (Nat.le_gt_cases n N) as [Le|Gt].
  - rewrite (proj2 (Nat.leb_le n (S N))) by lia. rewrite (proj2 (Nat.leb_le n N)) by lia. rewrite (proj2 (Nat.leb_le (pred n) N)) by lia.
    replace (S N + n + 1)%nat with (S (S (N + n))) by lia. replace (N + n + 1)%nat with (S (N + n)) by lia. replace (S N - n)%nat with (S (N - n)) by lia.
    replace (N + S n + 1)%nat with (S (S (N + n))) by lia.
    assert (E3 : (if Nat.leb (S n) N then F N * F N / (F (S (S (N + n))) * F (N - S n)%nat) else 0) = F N * F N * (INR N - INR n) / (F (S (S (N + n))) * F (N - n)%nat)).
    { destruct (Nat.leb_spec (S n) N) as [L|L].
      - replace (N - n)%nat with (S (N - S n)) by lia. rewrite (FS (N - S n)%nat), minus_INR, S_INR by lia. field.
        assert (INR (S n) <= INR N) by (apply le_INR; lia). rewrite S_INR in *. repeat split; try apply FP. replace (INR N - (INR n + 1) + 1) with (INR N - INR n) by ring. lra.
      - assert (n = N) by lia. subst n. unfold Rdiv. replace (INR N - INR N) with 0 by ring. ring. }
    rewrite E3.
    assert (E2 : INR n * (F N * F N / (F (N + pred n + 1)%nat * F (N - pred n)%nat)) = INR n * (F N * F N / (F (N + n)%nat * ((INR N - INR n + 1) * F (N - n)%nat)))).
    { destruct n as [|k]; [simpl; ring|]. cbn [pred]. replace (N + k + 1)%nat with (N + S k)%nat by lia. replace (N - k)%nat with (S (N - S k)) by lia.
      rewrite (FS (N - S k)%nat), (minus_INR N (S k)) by lia. reflexivity. }
    rewrite E2, !FS, !S_INR, !plus_INR, minus_INR by lia. pose proof (FP (N + n)%nat). pose proof (FP (N - n)%nat). pose proof (FP N).
    assert (INR n <= INR N) by (apply le_INR; lia). field. repeat split; auto; lra.
  - rewrite (proj2 (Nat.leb_gt n N)), (proj2 (Nat.leb_gt (S n) N)) by lia.
    destruct (Nat.eq_dec n (S N)) as [->|Ne].
    + rewrite (proj2 (Nat.leb_le (S N) (S N))) by lia. cbn [pred]. rewrite (proj2 (Nat.leb_le N N)) by lia.
      replace (S N + S N + 1)%nat with (S (S (S (N + N)))) by lia. replace (N + N + 1)%nat with (S (N + N)) by lia. rewrite !Nat.sub_diag.
      rewrite !FS, !S_INR, !plus_INR. pose proof (FP (N + N)%nat). pose proof (FP O). field. repeat split; auto; lra.
    + rewrite (proj2 (Nat.leb_gt n (S N))), (proj2 (Nat.leb_gt (pred n) N)) by lia. ring.
Qed.
Lemma cardioid_series N x : rsum (S N) (fun n => (2 * INR n + 1) * cf N n * eval_legendre n x) = ((1 + x) / 2) ^ N.
Proof.
  induction N as [|N IH].
  - cbn [rsum]. rewrite L_0. unfold cf. simpl. field.
  - assert (X : rsum (S (S N)) (fun n => (2 * INR n + 1) * cf (S N) n * eval_legendre n x) * 2 = (1 + x) * rsum (S N) (fun n => (2 * INR n + 1) * cf N n * eval_legendre n x)).
    { rewrite <- rsum_scal_r.
      rewrite (rsum_ext (S (S N)) _ (fun n => (2 * INR n + 1) * cf N n * eval_legendre n x + (INR n * cf N (pred n) * eval_legendre n x + (INR n + 1) * cf N (S n) * eval_legendre n x))).
      2:{ intros n _. pose proof (cf_step N n) as E. replace ((2 * INR n + 1) * cf (S N) n * eval_legendre n x * 2) with ((2 * INR n + 1) * cf (S N) n * 2 * eval_legendre n x) by ring. rewrite E. ring. }
      rewrite !rsum_plus. rewrite Rmult_plus_distr_r, Rmult_1_l.
      assert (T0 : forall n, (N < n)%nat -> cf N n = 0) by (intros n Hn; unfold cf; rewrite (proj2 (Nat.leb_gt n N)) by lia; reflexivity).
      assert (A1 : rsum (S (S N)) (fun n => (2 * INR n + 1) * cf N n * eval_legendre n x) = rsum (S N) (fun n => (2 * INR n + 1) * cf N n * eval_legendre n x)).
      { change (rsum (S (S N)) (fun n => (2 * INR n + 1) * cf N n * eval_legendre n x)) with (rsum (S N) (fun n => (2 * INR n + 1) * cf N n * eval_legendre n x) + (2 * INR (S N) + 1) * cf N (S N) * eval_legendre (S N) x).
        rewrite T0 by lia. ring. }
      rewrite A1. f_equal.
      (* x P_n = ((n+1) P_{n+1} + n P_{n-1}) / (2n+1) *)
      assert (B : forall n, (2 * INR n + 1) * cf N n * (x * eval_legendre n x) = cf N n * ((INR n + 1) * eval_legendre (S n) x) + cf N n * (INR n * eval_legendre (pred n) x)).
      { intros [|n]; [rewrite L_0, L_1; simpl; ring|]. cbn [pred]. pose proof (L_S n x) as E. rewrite S_INR.
        replace (INR n + 1 + 1) with (INR n + 2) by ring. rewrite E. ring. }
      rewrite rsum_scal_l, (rsum_ext (S N) (fun i => x * ((2 * INR i + 1) * cf N i * eval_legendre i x)) (fun n => cf N n * ((INR n + 1) * eval_legendre (S n) x) + cf N n * (INR n * eval_legendre (pred n) x))) by (intros n _; rewrite <- B; ring).
      rewrite rsum_plus. f_equal.
      - rewrite (rsum_shift (S N) (fun n => INR n * cf N (pred n) * eval_legendre n x)). simpl (INR 0). rewrite !Rmult_0_l, Rplus_0_l. apply rsum_ext. intros n _. cbn [pred]. rewrite S_INR. ring.
      - rewrite (rsum_shift N (fun n => cf N n * (INR n * eval_legendre (pred n) x))). simpl (INR 0).
        cbn [rsum]. rewrite (T0 (S N)), (T0 (S (S N))) by lia. cbn [pred].
        rewrite (rsum_ext N (fun i => cf N (S i) * (INR (S i) * eval_legendre i x)) (fun n => (INR n + 1) * cf N (S n) * eval_legendre n x)) by (intros n _; rewrite S_INR; ring). ring. }
    rewrite IH in X. cbn [pow]. apply (Rmult_eq_reg_r 2); [|lra]. rewrite X. field.
Qed.
Lemma card_len N : length (cardioid_modal_weights N) = (N + 1)%nat. Proof. unfold cardioid_modal_weights. rewrite map_length, seq_length. reflexivity. Qed.
Lemma card_nth N n : (n <= N)%nat -> nth n (cardioid_modal_weights N) 0 = 4 * PI * cf N n.
Proof. intros H. unfold cardioid_modal_weights. rewrite nth_map_seq by lia. unfold cf. rewrite (proj2 (Nat.leb_le n N)) by lia. reflexivity. Qed.
Lemma cardioid_amp N x : amp (cardioid_modal_weights N) x = ((1 + x) / 2) ^ N.
Proof.
  unfold amp. rewrite card_len, <- cardioid_series. replace (N + 1)%nat with (S N) by lia. apply rsum_ext. intros n Hn. rewrite card_nth by lia. field. apply PI_neq0.
Qed.
Lemma cardioid_en N : en (cardioid_modal_weights N) = 4 * PI / (2 * INR N + 1).
Proof.
  pose proof PI_RGT_0 as PP. pose proof (pos_INR N) as PN.
  assert (P : pint (fun x => amp (cardioid_modal_weights N) x ^ 2) (2 / (2 * INR N + 1))).
  { exists (fun x => 2 / (2 * INR N + 1) * ((1 + x) * / 2) ^ S (2 * N)). split.
    - intros x. assert (D : derivable_pt_lim (fun x => (1 + x) * / 2) x (/ 2)).
      { eapply dpl_val; [|exact (derivable_pt_lim_mult (fun x => 1 + x) (fun _ => / 2) x _ _ (derivable_pt_lim_plus (fun _ => 1) (fun x => x) x _ _ (derivable_pt_lim_const 1 x) (derivable_pt_lim_id x)) (derivable_pt_lim_const (/ 2) x))]. cbv beta. unfold plus_fct. ring. }
      pose proof (derivable_pt_lim_scal _ (2 / (2 * INR N + 1)) x _ (derivable_pt_lim_comp _ (fun y => y ^ S (2 * N)) x _ _ D (derivable_pt_lim_pow ((1 + x) * / 2) (S (2 * N))))) as K.
      eapply dpl_val; [|exact K]. cbn [pred]. rewrite cardioid_amp, <- pow_mult, S_INR, mult_INR. replace (N * 2)%nat with (2 * N)%nat by lia. change (INR 2) with 2. unfold Rdiv. field. lra.
    - replace ((1 + 1) * / 2) with 1 by field. replace ((1 + -1) * / 2) with 0 by field. rewrite pow1, pow_i by lia. ring. }
  pose proof (pint_unique _ _ _ (amp_sq (cardioid_modal_weights N)) P) as U. replace (en (cardioid_modal_weights N)) with (2 * PI * (en (cardioid_modal_weights N) / (2 * PI))) by (field; lra).
  rewrite U. field. lra.
Qed.

(** ** max-rE *)
Lemma amp_span N w : length w = (N + 1)%nat -> lspan (S N) (amp w).
Proof. intros L. exists (fun n => nth n w 0 * (2 * INR n + 1) / (4 * PI)). intros x. unfold amp. rewrite L. replace (N + 1)%nat with (S N) by lia. reflexivity. Qed.
Lemma lspan_mulspan n m f g : lspan (S n) f -> lspan (S m) g -> lspan (S (n + m)) (fun x => f x * g x).
Proof.
  intros (a & A) (b & B). apply (lspan_ext _ (fun x => rsum (S n) (fun i => rsum (S m) (fun j => (a i * b j) * (eval_legendre i x * eval_legendre j x))))).
  { intros x. rewrite A, B, <- rsum_scal_r. apply rsum_ext. intros i _. rewrite rsum_scal_l. apply rsum_ext. intros. ring. }
  apply (lspan_sum _ (S n) (fun i x => rsum (S m) (fun j => a i * b j * (eval_legendre i x * eval_legendre j x)))). intros i Hi.
  apply (lspan_sum _ (S m) (fun j x => a i * b j * (eval_legendre i x * eval_legendre j x))). intros j Hj.
  apply lspan_scal. apply (lspan_mono (S (i + j))); [lia|apply lspan_mul].
Qed.
Section MaxRE.
Variables (N : nat) (x : nat -> R) (w : list R).
Hypothesis RX : roots (S N) x.
Hypothesis LW : length w = (N + 1)%nat.
Definition gm : R := rsum (S N) (fun i => gw N x i * (amp w (x i) ^ 2 * x i)).
Lemma en_quad : en w / (2 * PI) = rsum (S N) (fun i => gw N x i * amp w (x i) ^ 2).
Proof.
  apply (pint_unique _ _ _ (amp_sq w)). apply (quad_span N x (roots_distinct _ _ RX) (fun i Hi => proj1 (proj1 RX i Hi)) (fun y => amp w y ^ 2)).
  apply (lspan_ext _ (fun y => amp w y * amp w y)); [intros; ring|]. apply (lspan_mono (S (N + N))); [lia|]. apply lspan_mulspan; apply amp_span; exact LW.
Qed.
Lemma moment_quad : beam_moment w (2 * PI * gm).
Proof.
  apply moment_ex; [lia|]. apply (quad_span N x (roots_distinct _ _ RX) (fun i Hi => proj1 (proj1 RX i Hi)) (fun y => amp w y ^ 2 * y)).
  apply (lspan_ext _ (fun y => y * (amp w y * amp w y))); [intros; ring|]. apply (lspan_mono (S (S (N + N)))); [lia|]. apply lspan_x. apply lspan_mulspan; apply amp_span; exact LW.
Qed.
End MaxRE.
