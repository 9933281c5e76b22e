(** Filter banks with complex harmonics. *)
From Coq Require Import Lra Lia Ring.
From Verif Require Import Base BaseFacts M_utils S_utils P_utils M_sig P_sig M_process M_sph0 M_sph S_linalg S_sph
  P_sph1 P_sph2 P_sph3 P_sph4 P_sph5 P_sph6 P_sph7 P_sph8 P_sph9 P_sph10 P_sph11 P_sph12 P_sph13 M_parsa3 M_process3 S_zp P_cplx M_io M_io2 M_io3 M_sph3 S_sph3 S_grids P_csph1 P_csph2 P_csph3 P_csph4.
Open Scope R_scope.
Add Ring C2ring_csph5 : cring.

Lemma row_scale_c_ok v Y : length v = cnc Y -> exists A, row_scale_c v Y = Ok A /\ cnr A = cnr Y /\ cnc A = cnc Y /\
  forall i j, (j < cnc Y)%nat -> cent A i j = cscal (nth j v 0) (cent Y i j).
Proof.
  intros L. unfold row_scale_c. rewrite L, Nat.eqb_refl. cbn [orb]. eexists. split; [reflexivity|]. cbn [cnr cnc cent].
  split; auto. split; [destruct (Nat.eqb (cnc Y) 1); auto|]. intros i j Hj. rewrite (bc1_eq v j (cnc Y)) by auto.
  f_equal. f_equal. destruct (Nat.eqb_spec (cnc Y) 1); lia.
Qed.
Lemma sector_orth Y J : nr Y = J -> (0 < J)%nat -> sector_grid Y J -> orthonormal_on Y (equal_weights J).
Proof.
  intros R0 HJ H a b Ha Hb. rewrite R0. rewrite (rsum_ext J _ (fun j => 4 * PI / INR J * (ent Y j a * ent Y j b))) by (intros j Hj; rewrite nth_equal_weights by auto; reflexivity).
  rewrite rsum_scal, H by auto. assert (INR J <> 0) by (apply not_0_INR; lia). field. split; auto. apply PI_neq0.
Qed.
(** Yc^H Yc = J / (4 pi) I *)
Lemma sector_c N azi zen Y : length zen = length azi -> (0 < length azi)%nat -> sh_matrix N azi zen = Ok Y -> sector_grid Y (length azi) ->
  exists Yc, sh_matrix_c N azi zen = Ok Yc /\ cnr Yc = length azi /\ cnc Yc = ((N + 1) ^ 2)%nat /\
    forall a b, (a < (N + 1) ^ 2)%nat -> (b < (N + 1) ^ 2)%nat -> csum (length azi) (fun j => cmul (cconj (cent Yc j a)) (cent Yc j b)) = cre (INR (length azi) / (4 * PI) * delta a b).
Proof.
  intros L HJ EY HG. destruct (sh_matrix_ok N azi zen L) as (Y2 & E2 & R & C & _). rewrite EY in E2. injection E2 as <-.
  destruct (unitary_of N azi zen _ Y L EY (sector_orth Y (length azi) R HJ HG)) as (Yc & Ec & Rc & Cc & U). exists Yc. split; auto. split; auto. split; auto.
  intros a b Ha Hb. pose proof (U a b ltac:(rewrite Cc; auto) ltac:(rewrite Cc; auto)) as G. rewrite Rc in G. fold (cre (delta a b)) in G.
  assert (JP : 0 < INR (length azi)) by (apply lt_0_INR; lia). pose proof PI_RGT_0. rewrite cre_mul, <- G. rewrite <- csum_mul. apply csum_ext'. intros j Hj.
  rewrite nth_equal_weights by auto. rewrite cscal_cre. replace (cmul (cconj (cent Yc j a)) (cent Yc j b)) with (cmul (cre (INR (length azi) / (4 * PI) * (4 * PI / INR (length azi)))) (cmul (cconj (cent Yc j a)) (cent Yc j b))) at 1.
  - rewrite cre_mul. ring.
  - replace (INR (length azi) / (4 * PI) * (4 * PI / INR (length azi))) with 1 by (field; lra). ring.
Qed.

Lemma order_norm n azi zen : rsum (2 * n + 1) (fun k => cnorm2 (sph_harm (Z.of_nat k - Z.of_nat n) n azi zen)) =
  rsum (2 * n + 1) (fun k => sh_real n (Z.of_nat k - Z.of_nat n) azi zen * sh_real n (Z.of_nat k - Z.of_nat n) azi zen).
Proof.
  assert (E : forall x y, cre x = cre y -> x = y) by (intros x y H; injection H; auto). apply E. rewrite <- !csum_cre.
  rewrite (csum_sym n (fun m => cre (cnorm2 (sph_harm m n azi zen)))), (csum_sym n (fun m => cre (sh_real n m azi zen * sh_real n m azi zen))). f_equal.
  - rewrite basis_zero. unfold cnorm2. cbn [fst snd]. f_equal. ring.
  - apply csum_ext'. intros i Hi. rewrite basis_pos, basis_neg by lia. rewrite <- !cre_add. f_equal. unfold cnorm2, cscal. cbn [fst snd].
    pose proof (m1sq (Z.to_nat (Z.of_nat (S i)))) as M1. set (e := (-1) ^ Z.to_nat (Z.of_nat (S i))) in *. assert (H2 : / sqrt 2 * / sqrt 2 = / 2) by (rewrite <- Rinv_mult, s2sq; reflexivity).
    unfold Rdiv. set (h := / sqrt 2) in *. set (x := sh_real n (Z.of_nat (S i)) azi zen). set (y := sh_real n (- Z.of_nat (S i)) azi zen).
    transitivity ((e * e + 1) * (h * h) * (x * x + y * y)); [ring|]. rewrite M1, H2. field.
Qed.

Lemma fbc_pieces N (azi zen : list R) c Y : cnr Y = length azi -> cnc Y = ((N + 1) ^ 2)%nat -> length c = (N + 1)%nat ->
  exists A S, row_scale_c (repeat_per_order c) Y = Ok A /\ row_scale_c (repeat_per_order (map (fun x => 1 / (x / nth 0 c 0)) c)) Y = Ok S /\
    cnr A = length azi /\ cnc A = ((N + 1) ^ 2)%nat /\ cnr S = length azi /\ cnc S = ((N + 1) ^ 2)%nat /\
    (forall i n k, (n <= N)%nat -> (k < 2 * n + 1)%nat -> cent A i (n * n + k) = cscal (nth n c 0) (cent Y i (n * n + k)) /\
       cent S i (n * n + k) = cscal (1 / (nth n c 0 / nth 0 c 0)) (cent Y i (n * n + k))).
Proof.
  intros R C L. rewrite sq2 in C |- *.
  destruct (row_scale_c_ok (repeat_per_order c) Y) as (A & EA & RA & CA & HA); [rewrite rpo_length, L; auto|].
  destruct (row_scale_c_ok (repeat_per_order (map (fun x => 1 / (x / nth 0 c 0)) c)) Y) as (S & ES & RS & CS & HS); [rewrite rpo_length, map_length, L; auto|].
  exists A, S. split; auto. split; auto. split; [congruence|]. split; [congruence|]. split; [congruence|]. split; [congruence|].
  intros i n k Hn Hk. assert (B : (n * n + k < cnc Y)%nat) by (rewrite C, <- sq2; apply acn_bound; auto).
  rewrite HA, HS by auto. rewrite !rpo_nth; rewrite ?map_length; auto; try lia.
  rewrite (nth_map_in (fun x => 1 / (x / nth 0 c 0)) c n 0 0) by lia. auto.
Qed.
Lemma fbc_product N Q c Y A S b : (forall x, In x c -> x <> 0) -> length c = (N + 1)%nat ->
  cnr A = Q -> cnc A = ((N + 1) ^ 2)%nat -> cnr S = Q -> cnc S = ((N + 1) ^ 2)%nat ->
  (forall i n k, (n <= N)%nat -> (k < 2 * n + 1)%nat -> cent A i (n * n + k) = cscal (nth n c 0) (cent Y i (n * n + k)) /\
       cent S i (n * n + k) = cscal (1 / (nth n c 0 / nth 0 c 0)) (cent Y i (n * n + k))) ->
  (forall i j, (i < (N + 1) ^ 2)%nat -> (j < (N + 1) ^ 2)%nat -> csum Q (fun q => cmul (cconj (cent Y q i)) (cent Y q j)) = cre (INR Q / (4 * PI) * delta i j)) ->
  exists P, cmatmul (cmscal (cre b) (cadj S)) A = Ok P /\ cidentity ((N + 1) ^ 2) (cre (b * nth 0 c 0 * (INR Q / (4 * PI)))) P.
Proof.
  intros HN L RA CA RS CS HE HG. rewrite cmatmul_ok by (cbn [cnc cnr cmscal cadj]; congruence). eexists. split; [reflexivity|].
  unfold cidentity. cbn [cnr cnc cmscal cadj cent]. split; auto. split; auto. intros i j Hi Hj.
  destruct (acn_decomp N i Hi) as (n & k & Hn & Hk & ->). destruct (acn_decomp N j Hj) as (n' & k' & Hn' & Hk' & ->).
  assert (NZ : forall n, (n <= N)%nat -> nth n c 0 <> 0) by (intros q Hq; apply HN, nth_In; lia).
  rewrite RS. rewrite (csum_ext' _ _ (fun q => cmul (cre (b * (1 / (nth n c 0 / nth 0 c 0)) * nth n' c 0)) (cmul (cconj (cent Y q (n * n + k))) (cent Y q (n' * n' + k'))))).
  - rewrite csum_mul, HG by auto. rewrite <- cre_mul, cscal_cre, <- cre_mul. f_equal. pose proof PI_neq0. pose proof (NZ n Hn). pose proof (NZ 0%nat ltac:(lia)).
    destruct (Nat.eq_dec n n') as [<-|D].
    + field. auto.
    + rewrite delta_diff; [ring|]. intros E. apply acn_uniq in E; auto. lia.
  - intros q _. destruct (HE q n k Hn Hk) as [_ E1]. destruct (HE q n' k' Hn' Hk') as [E2 _]. rewrite E1, E2. apply ceq; unfold cmul, cconj, cscal, cre; cbn [fst snd]; ring.
Qed.
Lemma cdiv_real x y : y <> 0 -> cdiv_np (x, 0) (cre y) = Some (cre (x / y)).
Proof.
  intros H. unfold cdiv_np, cre. cbn [fst snd]. replace (Reqb (y * y + 0 * 0) 0) with false by (symmetry; apply Reqb_false; nra). f_equal. apply ceq; unfold cscal, cmul, cconj; cbn [fst snd]; field; auto.
Qed.
Lemma csqrt_pos x : 0 <= x -> csqrt_np (cre x) = cre (sqrt x).
Proof.
  intros H. unfold csqrt_np, cre. cbn [fst snd]. replace (x * x + 0 * 0) with (x * x) by ring. rewrite sqrt_square by auto. replace ((x + x) / 2) with x by field. replace ((x - x) / 2) with 0 by field.
  rewrite sqrt_0. replace (Rltb 0 0) with false by (symmetry; apply Rltb_false; lra). reflexivity.
Qed.
Lemma first_entry_c N azi zen Y : length zen = length azi -> zeniths zen -> (0 < length azi)%nat -> sh_matrix_c N azi zen = Ok Y -> cent Y 0 0 = cre (/ sqrt (4 * PI)).
Proof.
  intros L Z H EY. destruct (sh_matrix_c_ok N azi zen L) as (Y2 & E2 & _ & _ & HY). rewrite EY in E2. injection E2 as <-.
  pose proof (HY 0%nat 0%nat 0%nat ltac:(lia) ltac:(lia) ltac:(lia)) as X. simpl (0 * 0 + 0)%nat in X. simpl (Z.of_nat 0 - Z.of_nat 0)%Z in X. rewrite X, basis_zero.
  rewrite sh_real_Yz, Yz00; auto. apply zeniths_nth; auto; lia.
Qed.

Theorem fbc_perfect pinv N azi zen c Y : length zen = length azi -> zeniths zen -> (0 < length azi)%nat ->
  sh_matrix N azi zen = Ok Y -> sector_grid Y (length azi) -> length c = (N + 1)%nat -> (forall x, In x c -> x <> 0) ->
  exists A B P, design_sph_filterbank_c pinv N azi zen c MPerfect = Ok (Some (A, B)) /\
    cnr A = length azi /\ cnc A = ((N + 1) ^ 2)%nat /\ cnr B = ((N + 1) ^ 2)%nat /\ cnc B = length azi /\
    cmatmul B A = Ok P /\ cidentity ((N + 1) ^ 2) (1, 0) P.
Proof.
  intros L Z HJ EY HG Lc Hc. destruct (sector_c N azi zen Y L HJ EY HG) as (Yc & Ec & R & C & HGc).
  destruct (fbc_pieces N azi zen c Yc R C Lc) as (A & S & EA & ES & RA & CA & RS & CS & HE).
  unfold design_sph_filterbank_c. rewrite Ec. cbn [bind]. rewrite EA. cbn [bind]. destruct (Nat.eqb_spec (length azi) 0); [lia|].
  pose proof (sq_ge1 N) as G1. 
  assert (A0 : cent A 0 0 = cre (nth 0 c 0 * / sqrt (4 * PI))).
  { pose proof (HE 0%nat 0%nat 0%nat ltac:(lia) ltac:(lia)) as [X _]. simpl in X. rewrite X, (first_entry_c N azi zen Yc), cscal_cre, <- cre_mul; auto. }
  assert (C0 : nth 0 c 0 <> 0) by (apply Hc, nth_In; lia).
  destruct s4 as [P4 Q4]. assert (JP : 0 < INR (length azi)) by (apply lt_0_INR; lia). pose proof PI_RGT_0.
  assert (AN : INR (length azi) * (nth 0 c 0 * / sqrt (4 * PI)) <> 0).
  { apply Rmult_integral_contrapositive_currified; [lra|]. apply Rmult_integral_contrapositive_currified; auto. apply Rinv_neq_0_compat. lra. }
  assert (RF : reconstruction_factor_c (map (cent A 0) (seq 0 (cnc A))) (length azi) MAmplitude = Ok (Some (cre (sqrt (4 * PI) / (INR (length azi) * (nth 0 c 0 * / sqrt (4 * PI))))))).
  { destruct (cnc A) as [|K] eqn:EK; [lia|]. cbn [seq map reconstruction_factor_c]. rewrite A0, cscal_cre, <- cre_mul, cdiv_real by auto. reflexivity. }
  rewrite RF. cbn [bind]. rewrite ES. cbn [bind]. rewrite (existsb_nonzero c Hc).
  destruct (fbc_product N (length azi) c Yc A S (sqrt (4 * PI) / (INR (length azi) * (nth 0 c 0 * / sqrt (4 * PI)))) Hc Lc RA CA RS CS HE HGc) as (P & EP & HP).
  eexists. eexists. exists P. split; [reflexivity|]. split; auto. split; auto. split; auto. split; auto. split; auto.
  replace (1, 0) with (cre (sqrt (4 * PI) / (INR (length azi) * (nth 0 c 0 * / sqrt (4 * PI))) * nth 0 c 0 * (INR (length azi) / (4 * PI)))); auto. unfold cre. f_equal.
  replace (sqrt (4 * PI) / (INR (length azi) * (nth 0 c 0 * / sqrt (4 * PI))) * nth 0 c 0 * (INR (length azi) / (4 * PI)))
    with ((sqrt (4 * PI) * sqrt (4 * PI)) / (4 * PI)) by (field; repeat split; lra).
  rewrite Q4. field. lra.
Qed.

Lemma fbc_energy_sum N azi zen Y c A : length zen = length azi -> zeniths zen -> (0 < length azi)%nat -> sh_matrix_c N azi zen = Ok Y ->
  (forall i n k, (n <= N)%nat -> (k < 2 * n + 1)%nat -> cent A i (n * n + k) = cscal (nth n c 0) (cent Y i (n * n + k))) -> cnc A = ((N + 1) ^ 2)%nat ->
  let w := map (cent A 0) (seq 0 (cnc A)) in
  csum (length w) (fun i => cmul (cconj (nth i w (0, 0))) (nth i w (0, 0))) = cre (rsum (N + 1) (fun n => (2 * INR n + 1) / (4 * PI) * (nth n c 0 * nth n c 0))).
Proof.
  intros L Z Hi EY HE CA w. unfold w. rewrite map_length, seq_length.
  rewrite (csum_ext' (cnc A) _ (fun i => cre (cnorm2 (cent A 0 i)))) by (intros i Hi'; rewrite nth_map_seq by auto; apply cnorm2_conj).
  rewrite csum_cre. f_equal. rewrite CA, sq2, rsum_acn. apply rsum_ext. intros n Hn.
  destruct (sh_matrix_c_ok N azi zen L) as (Y2 & E2 & _ & _ & HY). rewrite EY in E2. injection E2 as <-.
  rewrite (rsum_ext _ _ (fun k => (nth n c 0 * nth n c 0) * cnorm2 (sph_harm (Z.of_nat k - Z.of_nat n) n (nth 0 azi 0) (nth 0 zen 0)))).
  - rewrite rsum_scal, order_norm.
    rewrite (rsum_ext _ _ (fun k => Yz n (Z.of_nat k - Z.of_nat n) (sph2cart (nth 0 azi 0) (nth 0 zen 0) 1) * Yz n (Z.of_nat k - Z.of_nat n) (sph2cart (nth 0 azi 0) (nth 0 zen 0) 1))) by (intros k Hk; rewrite sh_real_Yz by (apply zeniths_nth; auto; lia); reflexivity).
    pose proof (Yz_addition n (sph2cart (nth 0 azi 0) (nth 0 zen 0) 1) (sph2cart (nth 0 azi 0) (nth 0 zen 0) 1)) as AD.
    unfold zs in AD. rewrite AD, unit_dir, Rmult_1_r, <- legendre_Q, legendre_one. ring.
  - intros k Hk. rewrite HE by (auto; lia). rewrite HY by (auto; lia). unfold cnorm2, cscal. cbn [fst snd]. ring.
Qed.
Theorem fbc_energy pinv N azi zen c Y : length zen = length azi -> zeniths zen -> (0 < length azi)%nat ->
  sh_matrix N azi zen = Ok Y -> sector_grid Y (length azi) -> length c = (N + 1)%nat -> (forall x, In x c -> x <> 0) ->
  exists A B P, design_sph_filterbank_c pinv N azi zen c MEnergy = Ok (Some (A, B)) /\
    cnr A = length azi /\ cnc A = ((N + 1) ^ 2)%nat /\ cnr B = ((N + 1) ^ 2)%nat /\ cnc B = length azi /\
    cmatmul B A = Ok P /\
    cidentity ((N + 1) ^ 2) (nth 0 c 0 * sqrt (INR (length azi)) / sqrt (rsum (N + 1) (fun n => (2 * INR n + 1) * (nth n c 0 * nth n c 0))), 0) P.
Proof.
  intros L Z HJ EY HG Lc Hc. destruct (sector_c N azi zen Y L HJ EY HG) as (Yc & Ec & R & C & HGc).
  destruct (fbc_pieces N azi zen c Yc R C Lc) as (A & S & EA & ES & RA & CA & RS & CS & HE).
  unfold design_sph_filterbank_c. rewrite Ec. cbn [bind]. rewrite EA. cbn [bind]. destruct (Nat.eqb_spec (length azi) 0); [lia|].
  destruct (Nat.eqb_spec (length c) 0); [lia|].
  cbn [reconstruction_factor_c bind]. rewrite (fbc_energy_sum N azi zen Yc c A) by (auto; intros; apply HE; auto). rewrite ES. cbn [bind]. rewrite (existsb_nonzero c Hc).
  set (T := rsum (N + 1) (fun n => (2 * INR n + 1) * (nth n c 0 * nth n c 0))).
  pose proof PI_RGT_0 as PP. assert (JP : 0 < INR (length azi)) by (apply lt_0_INR; lia).
  assert (C0 : nth 0 c 0 <> 0) by (apply Hc, nth_In; lia).
  assert (TP : 0 < T).
  { assert (TG : forall n, (n < N + 1)%nat -> 0 <= (2 * INR n + 1) * (nth n c 0 * nth n c 0)).
    { intros q _. apply Rmult_le_pos; [pose proof (pos_INR q); lra|apply Rle_0_sqr]. }
    pose proof (rsum_ge_term (N + 1) (fun n => (2 * INR n + 1) * (nth n c 0 * nth n c 0)) 0%nat TG ltac:(lia)) as X.
    fold T in X. cbv beta in X. change (INR 0) with 0 in X. assert (0 < nth 0 c 0 * nth 0 c 0) by (apply Rlt_0_sqr; auto). lra. }
  assert (ET : rsum (N + 1) (fun n => (2 * INR n + 1) / (4 * PI) * (nth n c 0 * nth n c 0)) = T / (4 * PI)).
  { unfold T, Rdiv. rewrite <- rsum_scal_r. apply rsum_ext. intros q Hq. field. lra. }
  rewrite ET. rewrite cscal_cre, <- cre_mul. rewrite cdiv_real by (apply Rmult_integral_contrapositive_currified; [lra|apply Rgt_not_eq; apply Rdiv_lt_0_compat; lra]).
  assert (BP : 0 <= 4 * PI / (INR (length azi) * (T / (4 * PI)))) by (apply Rlt_le, Rdiv_lt_0_compat; [lra|apply Rmult_lt_0_compat; [lra|apply Rdiv_lt_0_compat; lra]]).
  rewrite csqrt_pos by auto.
  destruct (fbc_product N (length azi) c Yc A S (sqrt (4 * PI / (INR (length azi) * (T / (4 * PI))))) Hc Lc RA CA RS CS HE HGc) as (P & EP & HP).
  eexists. eexists. exists P. split; [reflexivity|]. split; auto. split; auto. split; auto. split; auto. split; auto.
  replace (nth 0 c 0 * sqrt (INR (length azi)) / sqrt T) with (sqrt (4 * PI / (INR (length azi) * (T / (4 * PI)))) * nth 0 c 0 * (INR (length azi) / (4 * PI))); auto.
  replace (4 * PI / (INR (length azi) * (T / (4 * PI)))) with ((4 * PI) * (4 * PI) / (INR (length azi) * T)) by (field; lra).
  rewrite sqrt_div_alt by (apply Rmult_lt_0_compat; lra). rewrite sqrt_square by lra. rewrite sqrt_mult by lra.
  assert (SJ : 0 < sqrt (INR (length azi))) by (apply sqrt_lt_R0; lra). assert (ST : 0 < sqrt T) by (apply sqrt_lt_R0; lra).
  rewrite <- (sqrt_sqrt (INR (length azi))) at 2 by lra. field. lra.
Qed.
Lemma fbc_mode_error pinv N azi zen c : length zen = length azi -> length c = (N + 1)%nat ->
  forall m, m = MAmplitude \/ m = MOther -> design_sph_filterbank_c pinv N azi zen c m = Err ValueError.
Proof.
  intros L Lc m Hm. destruct (sh_matrix_c_ok N azi zen L) as (Y & EY & R & C & _). unfold design_sph_filterbank_c. rewrite EY. cbn [bind].
  destruct (fbc_pieces N azi zen c Y R C Lc) as (A & S & EA & _). rewrite EA. cbn [bind]. destruct Hm as [-> | ->]; reflexivity.
Qed.
(** mode 'pinv' *)
Lemma fbc_pinv pinv N azi zen c : length zen = length azi -> length c = (N + 1)%nat ->
  exists A, design_sph_filterbank_c pinv N azi zen c MPinv = Ok (Some (A, pinv A)) /\ cnr A = length azi /\ cnc A = ((N + 1) ^ 2)%nat /\
    (forall i n m, (i < length azi)%nat -> (n <= N)%nat -> degree n m -> cent A i (acn n m) = cscal (nth n c 0) (sph_harm m n (nth i azi 0) (nth i zen 0))) /\
    (cpenrose A (pinv A) -> exists P, cmatmul (pinv A) A = Ok P /\ cnr P = ((N + 1) ^ 2)%nat /\ cnc P = ((N + 1) ^ 2)%nat /\
       (forall a b, (a < (N + 1) ^ 2)%nat -> (b < (N + 1) ^ 2)%nat -> cent P a b = cconj (cent P b a) /\ csum ((N + 1) ^ 2) (fun k => cmul (cent P a k) (cent P k b)) = cent P a b) /\
       (cleft_invertible A -> cidentity ((N + 1) ^ 2) (1, 0) P)).
Proof.
  intros L Lc. destruct (sh_matrix_c_ok N azi zen L) as (Y & EY & R & C & HY). destruct (fbc_pieces N azi zen c Y R C Lc) as (A & S & EA & ES & RA & CA & RS & CS & HE).
  exists A. unfold design_sph_filterbank_c. rewrite EY. cbn [bind]. rewrite EA. cbn [bind]. split; auto. split; auto. split; auto. split.
  - intros i n m Hi Hn D. rewrite acn_pos by auto. unfold degree in D. destruct (HE i n (Z.to_nat (m + Z.of_nat n)) Hn ltac:(lia)) as [E _]. rewrite E, HY by (auto; lia). do 2 f_equal. lia.
  - intros HP. pose proof HP as (RP & CP & A1 & A2 & A3 & A4). rewrite cmatmul_ok by congruence. eexists. split; [reflexivity|]. cbn [cnr cnc cent]. rewrite RP, CA, CP. split; auto. split; auto. split.
    + intros a b Ha Hb. split.
      * apply (A4 a b); rewrite CA; auto.
      * pose proof (penrose_projection A (pinv A) HP a b ltac:(rewrite CA; auto) ltac:(rewrite CA; auto)) as PP. rewrite CA in PP. exact PP.
    + intros HL. split; [reflexivity|]. split; [reflexivity|]. intros i j Hi Hj. cbn [cent]. pose proof (penrose_left A (pinv A) HP HL i j ltac:(rewrite CA; auto) ltac:(rewrite CA; auto)) as E. unfold cprod in E. rewrite E. apply ceq; cbn; ring.
Qed.
(** sector grids and weights without zeros have full rank *)
Lemma fbc_full_rank N azi zen c Y A : length zen = length azi -> (0 < length azi)%nat -> sh_matrix N azi zen = Ok Y -> sector_grid Y (length azi) -> (forall x, In x c -> x <> 0) -> length c = (N + 1)%nat ->
  cnr A = length azi -> cnc A = ((N + 1) ^ 2)%nat ->
  (forall i n m, (i < length azi)%nat -> (n <= N)%nat -> degree n m -> cent A i (acn n m) = cscal (nth n c 0) (sph_harm m n (nth i azi 0) (nth i zen 0))) -> cleft_invertible A.
Proof.
  intros L HJ EY HG Hc Lc RA CA HA. destruct (sector_c N azi zen Y L HJ EY HG) as (Yc & Ec & R & C & HGc).
  destruct (sh_matrix_c_ok N azi zen L) as (Y2 & E2 & _ & _ & HY). rewrite Ec in E2. injection E2 as <-.
  exists (CMat ((N + 1) ^ 2) (length azi) (fun a q => cscal (4 * PI / INR (length azi) / nth (Nat.sqrt a) c 0) (cconj (cent Yc q a)))).
  intros a b Ha Hb. rewrite CA in *. unfold cprod. rewrite RA. cbn [cent].
  destruct (acn_decomp N a Ha) as (n & k & Hn & Hk & ->). destruct (acn_decomp N b Hb) as (n' & k' & Hn' & Hk' & ->).
  assert (SQ : Nat.sqrt (n * n + k) = n) by (apply Nat.sqrt_unique; nia). rewrite SQ.
  assert (NZ : forall n, (n <= N)%nat -> nth n c 0 <> 0) by (intros q Hq; apply Hc, nth_In; lia).
  rewrite (csum_ext' _ _ (fun q => cmul (cre (4 * PI / INR (length azi) / nth n c 0 * nth n' c 0)) (cmul (cconj (cent Yc q (n * n + k))) (cent Yc q (n' * n' + k'))))).
  - rewrite csum_mul, HGc by auto. rewrite <- cre_mul. unfold cre. f_equal. pose proof (NZ n Hn). pose proof PI_neq0. assert (INR (length azi) <> 0) by (apply not_0_INR; lia).
    destruct (Nat.eq_dec n n') as [<-|D].
    + field. auto.
    + rewrite delta_diff; [ring|]. intros E. apply acn_uniq in E; auto. lia.
  - intros q Hq. rewrite <- (acn_at n' k') by auto. rewrite (HA q n') by (auto; unfold degree; lia). rewrite acn_at by auto. rewrite (HY q n' k') by auto. apply ceq; unfold cmul, cconj, cscal, cre; cbn [fst snd]; ring.
Qed.
