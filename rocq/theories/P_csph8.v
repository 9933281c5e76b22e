(** The matrices of a filter bank on any grid. *)
From Coq Require Import Lra Lia Ring.
From Verif Require Import Base BaseFacts M_utils S_utils P_utils M_sig P_sig M_process M_sph0 M_sph S_linalg S_sph
  P_sph1 P_sph2 P_sph3 P_sph4 P_sph5 P_sph6 P_sph7 P_sph8 P_sph9 P_sph10 P_sph11 P_sph12 P_sph13 M_parsa3 M_process3 S_zp P_cplx M_io M_io2 M_io3 M_sph3 S_sph3 S_grids P_csph1 P_csph2 P_csph3 P_csph4 P_csph5.
Open Scope R_scope.
Add Ring C2ring_csph8 : cring.

Definition fb_total (N : nat) (c : list R) : R := rsum (N + 1) (fun n => (2 * INR n + 1) * (nth n c 0 * nth n c 0)).
Lemma total_pos N c : length c = (N + 1)%nat -> (forall x, In x c -> x <> 0) -> 0 < fb_total N c.
Proof.
  intros Lc Hc. assert (C0 : nth 0 c 0 <> 0) by (apply Hc, nth_In; lia).
  assert (TG : forall n, (n < N + 1)%nat -> 0 <= (2 * INR n + 1) * (nth n c 0 * nth n c 0)).
  { intros q _. apply Rmult_le_pos; [pose proof (pos_INR q); lra|apply Rle_0_sqr]. }
  pose proof (rsum_ge_term (N + 1) (fun n => (2 * INR n + 1) * (nth n c 0 * nth n c 0)) 0%nat TG ltac:(lia)) as X.
  fold (fb_total N c) in X. cbv beta in X. change (INR 0) with 0 in X. assert (0 < nth 0 c 0 * nth 0 c 0) by (apply Rlt_0_sqr; auto). lra.
Qed.
Lemma total_scaled N c : rsum (N + 1) (fun n => (2 * INR n + 1) / (4 * PI) * (nth n c 0 * nth n c 0)) = fb_total N c / (4 * PI).
Proof. unfold fb_total, Rdiv. rewrite <- rsum_scal_r. apply rsum_ext. intros n Hn. field. apply PI_neq0. Qed.
Lemma energy_root J T : 0 < J -> 0 < T -> sqrt (4 * PI / (J * (T / (4 * PI)))) = 4 * PI / sqrt (J * T).
Proof.
  intros HJ HT. pose proof PI_RGT_0. replace (4 * PI / (J * (T / (4 * PI)))) with ((4 * PI) * (4 * PI) / (J * T)) by (field; lra).
  rewrite sqrt_div_alt by (apply Rmult_lt_0_compat; lra). rewrite sqrt_square by lra. reflexivity.
Qed.
Lemma zero_found c : In 0 c -> existsb (fun x => Reqb x 0) c = true.
Proof. intros H. apply existsb_exists. exists 0. split; auto. apply Reqb_true. reflexivity. Qed.

Lemma row_pieces N azi zen c Y : sh_matrix N azi zen = Ok Y -> length zen = length azi -> length c = (N + 1)%nat ->
  exists A S, row_scale (repeat_per_order c) Y = Ok A /\ row_scale (repeat_per_order (map (fun x => 1 / (x / nth 0 c 0)) c)) Y = Ok S /\
    nr A = length azi /\ nc A = ((N + 1) ^ 2)%nat /\ nr S = length azi /\ nc S = ((N + 1) ^ 2)%nat /\
    (forall i n m, (i < length azi)%nat -> (n <= N)%nat -> degree n m -> ent A i (acn n m) = nth n c 0 * sh_real n m (nth i azi 0) (nth i zen 0) /\
       ent S i (acn n m) = 1 / (nth n c 0 / nth 0 c 0) * sh_real n m (nth i azi 0) (nth i zen 0)).
Proof.
  intros EY L Lc. destruct (sh_matrix_ok N azi zen L) as (Y2 & E2 & R & C & HY). rewrite EY in E2. injection E2 as <-.
  destruct (fb_pieces N azi zen c Y EY R C Lc) as (A & S & EA & ES & RA & CA & RS & CS & HE). exists A, S. do 6 (split; [assumption|]).
  intros i n m Hi Hn D. rewrite acn_pos by auto. unfold degree in D. destruct (HE i n (Z.to_nat (m + Z.of_nat n)) Hn ltac:(lia)) as [E1 E2]. rewrite E1, E2, HY by (auto; lia).
  replace (Z.of_nat (Z.to_nat (m + Z.of_nat n)) - Z.of_nat n)%Z with m by lia. auto.
Qed.
Theorem bank_real pinv N azi zen c : length zen = length azi -> zeniths zen -> (0 < length azi)%nat -> length c = (N + 1)%nat ->
  ((forall x, In x c -> x <> 0) -> exists A B B', design_sph_filterbank pinv N azi zen c MPerfect = Ok (Some (A, B)) /\ design_sph_filterbank pinv N azi zen c MEnergy = Ok (Some (A, B')) /\
    nr A = length azi /\ nc A = ((N + 1) ^ 2)%nat /\ nr B = ((N + 1) ^ 2)%nat /\ nc B = length azi /\ nr B' = ((N + 1) ^ 2)%nat /\ nc B' = length azi /\
    forall i n m, (i < length azi)%nat -> (n <= N)%nat -> degree n m ->
      ent A i (acn n m) = nth n c 0 * sh_real n m (nth i azi 0) (nth i zen 0) /\
      ent B (acn n m) i = 4 * PI / (INR (length azi) * nth n c 0) * sh_real n m (nth i azi 0) (nth i zen 0) /\
      ent B' (acn n m) i = 4 * PI * nth 0 c 0 / (sqrt (INR (length azi) * rsum (N + 1) (fun n => (2 * INR n + 1) * (nth n c 0 * nth n c 0))) * nth n c 0) * sh_real n m (nth i azi 0) (nth i zen 0)) /\
  (In 0 c -> design_sph_filterbank pinv N azi zen c MPerfect = Ok None /\ design_sph_filterbank pinv N azi zen c MEnergy = Ok None).
Proof.
  intros L Z HJ Lc. destruct (sh_matrix_ok N azi zen L) as (Y & EY & R & C & HY0).
  destruct (row_pieces N azi zen c Y EY L Lc) as (A & S & EA & ES & RA & CA & RS & CS & HE).
  pose proof (sq_ge1 N) as G1. assert (JP : 0 < INR (length azi)) by (apply lt_0_INR; lia). pose proof PI_RGT_0 as PP. destruct s4 as [P4 Q4].
  assert (A0 : ent A 0 0 = nth 0 c 0 * / sqrt (4 * PI)).
  { pose proof (HE 0%nat 0%nat 0%Z ltac:(lia) ltac:(lia) ltac:(unfold degree; lia)) as [X _]. change (acn 0 0) with 0%nat in X. rewrite X. f_equal. rewrite sh_real_Yz, Yz00; auto. apply zeniths_nth; auto; lia. }
  unfold design_sph_filterbank. rewrite EY. cbn [bind]. rewrite EA. cbn [bind]. destruct (Nat.eqb_spec (length azi) 0); [lia|].
  destruct (Nat.eqb_spec (length c) 0); [lia|].
  rewrite recon_amp by lia. cbn [reconstruction_factor bind]. rewrite ES. cbn [bind]. split.
  - intros Hc. rewrite (existsb_nonzero c Hc). assert (C0 : nth 0 c 0 <> 0) by (apply Hc, nth_In; lia). pose proof (total_pos N c Lc Hc) as TP.
    assert (EN : lsum (map (fun x => x * x) (map (ent A 0) (seq 0 (nc A)))) = fb_total N c / (4 * PI)).
    { rewrite <- total_scaled. apply (fb_energy_sum N azi zen Y c A 0%nat); auto. intros i k p Hk Hp.
      destruct (fb_pieces N azi zen c Y EY R C Lc) as (A' & S' & EA' & _ & _ & _ & _ & _ & HE'). rewrite EA in EA'. injection EA' as <-. apply HE'; auto. }
    rewrite EN. assert (AN : ent A 0 0 * INR (length azi) <> 0).
    { rewrite A0. apply Rmult_integral_contrapositive_currified; [|lra]. apply Rmult_integral_contrapositive_currified; auto. apply Rinv_neq_0_compat. lra. }
    assert (TN : fb_total N c / (4 * PI) * INR (length azi) <> 0) by (apply Rmult_integral_contrapositive_currified; [apply Rgt_not_eq, Rdiv_lt_0_compat; lra|lra]).
    unfold np_div. replace (Reqb (ent A 0 0 * INR (length azi)) 0) with false by (symmetry; apply Reqb_false; auto).
    replace (Reqb (fb_total N c / (4 * PI) * INR (length azi)) 0) with false by (symmetry; apply Reqb_false; auto).
    eexists. eexists. eexists. split; [reflexivity|]. split; [reflexivity|]. cbn [mscal mtr nr nc ent]. do 6 (split; [assumption|]).
    intros i k m Hi Hk D. destruct (HE i k m Hi Hk D) as [E1 E2]. assert (CK : nth k c 0 <> 0) by (apply Hc, nth_In; lia). split; auto. rewrite E2, A0. split.
    + replace (4 * PI) with (sqrt (4 * PI) * sqrt (4 * PI)) at 3 by (apply Q4). field. repeat split; auto; lra.
    + rewrite (Rmult_comm (fb_total N c / (4 * PI))), energy_root by auto. fold (fb_total N c). assert (0 < sqrt (INR (length azi) * fb_total N c)) by (apply sqrt_lt_R0, Rmult_lt_0_compat; lra). field. repeat split; auto; lra.
  - intros H0. rewrite (zero_found c H0). split; match goal with |- Ok (match ?b with Some _ => _ | None => _ end) = _ => destruct b; reflexivity end.
Qed.

Theorem bank_complex pinv N azi zen c : length zen = length azi -> zeniths zen -> (0 < length azi)%nat -> length c = (N + 1)%nat ->
  ((forall x, In x c -> x <> 0) -> exists A B B', design_sph_filterbank_c pinv N azi zen c MPerfect = Ok (Some (A, B)) /\ design_sph_filterbank_c pinv N azi zen c MEnergy = Ok (Some (A, B')) /\
    cnr A = length azi /\ cnc A = ((N + 1) ^ 2)%nat /\ cnr B = ((N + 1) ^ 2)%nat /\ cnc B = length azi /\ cnr B' = ((N + 1) ^ 2)%nat /\ cnc B' = length azi /\
    forall i n m, (i < length azi)%nat -> (n <= N)%nat -> degree n m ->
      cent A i (acn n m) = cscal (nth n c 0) (sph_harm m n (nth i azi 0) (nth i zen 0)) /\
      cent B (acn n m) i = cscal (4 * PI / (INR (length azi) * nth n c 0)) (cconj (sph_harm m n (nth i azi 0) (nth i zen 0))) /\
      cent B' (acn n m) i = cscal (4 * PI * nth 0 c 0 / (sqrt (INR (length azi) * rsum (N + 1) (fun n => (2 * INR n + 1) * (nth n c 0 * nth n c 0))) * nth n c 0)) (cconj (sph_harm m n (nth i azi 0) (nth i zen 0)))) /\
  (In 0 c -> design_sph_filterbank_c pinv N azi zen c MPerfect = Ok None /\ design_sph_filterbank_c pinv N azi zen c MEnergy = Ok None).
Proof.
  intros L Z HJ Lc. destruct (sh_matrix_c_ok N azi zen L) as (Y & EY & R & C & HY0).
  destruct (fbc_pieces N azi zen c Y R C Lc) as (A & S & EA & ES & RA & CA & RS & CS & HE0).
  assert (HE : forall i n m, (i < length azi)%nat -> (n <= N)%nat -> degree n m -> cent A i (acn n m) = cscal (nth n c 0) (sph_harm m n (nth i azi 0) (nth i zen 0)) /\
       cent S i (acn n m) = cscal (1 / (nth n c 0 / nth 0 c 0)) (sph_harm m n (nth i azi 0) (nth i zen 0))).
  { intros i n m Hi Hn D. rewrite acn_pos by auto. unfold degree in D. destruct (HE0 i n (Z.to_nat (m + Z.of_nat n)) Hn ltac:(lia)) as [E1 E2]. rewrite E1, E2, HY0 by (auto; lia).
    replace (Z.of_nat (Z.to_nat (m + Z.of_nat n)) - Z.of_nat n)%Z with m by lia. auto. }
  pose proof (sq_ge1 N) as G1. assert (JP : 0 < INR (length azi)) by (apply lt_0_INR; lia). pose proof PI_RGT_0 as PP. destruct s4 as [P4 Q4].
  assert (A0 : cent A 0 0 = cre (nth 0 c 0 * / sqrt (4 * PI))).
  { pose proof (HE0 0%nat 0%nat 0%nat ltac:(lia) ltac:(lia)) as [X _]. simpl in X. rewrite X, (first_entry_c N azi zen Y), cscal_cre, <- cre_mul; auto. }
  unfold design_sph_filterbank_c. rewrite EY. cbn [bind]. rewrite EA. cbn [bind]. destruct (Nat.eqb_spec (length azi) 0); [lia|].
  assert (RF : reconstruction_factor_c (map (cent A 0) (seq 0 (cnc A))) (length azi) MAmplitude = Ok (cdiv_np (sqrt (4 * PI), 0) (cre (INR (length azi) * (nth 0 c 0 * / sqrt (4 * PI)))))).
  { destruct (cnc A) as [|K] eqn:EK; [lia|]. cbn [seq map reconstruction_factor_c]. rewrite A0, cscal_cre, <- cre_mul. reflexivity. }
  destruct (Nat.eqb_spec (length c) 0); [lia|].
  rewrite RF. cbn [reconstruction_factor_c bind]. rewrite ES. cbn [bind]. split.
  - intros Hc. rewrite (existsb_nonzero c Hc). assert (C0 : nth 0 c 0 <> 0) by (apply Hc, nth_In; lia). pose proof (total_pos N c Lc Hc) as TP.
    rewrite (fbc_energy_sum N azi zen Y c A) by (auto; intros; apply HE0; auto). rewrite total_scaled, cscal_cre, <- cre_mul.
    assert (AN : INR (length azi) * (nth 0 c 0 * / sqrt (4 * PI)) <> 0).
    { apply Rmult_integral_contrapositive_currified; [lra|]. apply Rmult_integral_contrapositive_currified; auto. apply Rinv_neq_0_compat. lra. }
    assert (TN : INR (length azi) * (fb_total N c / (4 * PI)) <> 0) by (apply Rmult_integral_contrapositive_currified; [lra|apply Rgt_not_eq, Rdiv_lt_0_compat; lra]).
    rewrite !cdiv_real by assumption.
    assert (BP : 0 <= 4 * PI / (INR (length azi) * (fb_total N c / (4 * PI)))) by (apply Rlt_le, Rdiv_lt_0_compat; [lra|apply Rmult_lt_0_compat; [lra|apply Rdiv_lt_0_compat; lra]]).
    rewrite csqrt_pos by auto.
    eexists. eexists. eexists. split; [reflexivity|]. split; [reflexivity|]. cbn [cmscal cadj cnr cnc cent]. do 6 (split; [assumption|]).
    intros i k m Hi Hk D. destruct (HE i k m Hi Hk D) as [E1 E2]. assert (CK : nth k c 0 <> 0) by (apply Hc, nth_In; lia). split; auto. rewrite E2. split.
    + replace (4 * PI / (INR (length azi) * nth k c 0)) with (sqrt (4 * PI) / (INR (length azi) * (nth 0 c 0 * / sqrt (4 * PI))) * (1 / (nth k c 0 / nth 0 c 0))).
      * apply ceq; unfold cmul, cconj, cscal, cre; cbn [fst snd]; ring.
      * replace (4 * PI) with (sqrt (4 * PI) * sqrt (4 * PI)) at 3 by (apply Q4). field. repeat split; auto; lra.
    + rewrite energy_root by auto. fold (fb_total N c). assert (0 < sqrt (INR (length azi) * fb_total N c)) by (apply sqrt_lt_R0, Rmult_lt_0_compat; lra).
      replace (4 * PI * nth 0 c 0 / (sqrt (INR (length azi) * fb_total N c) * nth k c 0)) with (4 * PI / sqrt (INR (length azi) * fb_total N c) * (1 / (nth k c 0 / nth 0 c 0))) by (field; repeat split; auto; lra).
      apply ceq; unfold cmul, cconj, cscal, cre; cbn [fst snd]; ring.
  - intros H0. rewrite (zero_found c H0). split; match goal with |- Ok (match ?b with Some _ => _ | None => _ end) = _ => destruct b; reflexivity end.
Qed.
