(** Filter banks, products of signals, rE, projection. *)
From Verif Require Import Base BaseFacts M_utils S_utils P_utils M_sig P_sig M_sph0 M_sph S_linalg S_sph
  P_sph1 P_sph2 P_sph3 P_sph4 P_sph5 P_sph6 P_sph7 P_sph8 P_sph9 P_sph10 P_sph11 P_sph12.
Open Scope R_scope.

Lemma row_scale_ok v Y : length v = nc Y -> exists A, row_scale v Y = Ok A /\ nr A = nr Y /\ nc A = nc Y /\
  forall i j, (j < nc Y)%nat -> ent A i j = nth j v 0 * ent Y i j.
Proof.
  intros L. unfold row_scale, bc_mul. rewrite L, Nat.eqb_refl. cbn [orb]. eexists. split; [reflexivity|]. cbn [nr nc ent].
  split; auto. split; [destruct (Nat.eqb (nc Y) 1); auto|]. intros i j Hj. rewrite (bc1_eq v j (nc Y)) by auto.
  f_equal. f_equal. destruct (Nat.eqb_spec (nc Y) 1); lia.
Qed.

Lemma equal_gram Y J : nr Y = J -> (0 < J)%nat -> orthonormal_on Y (equal_weights J) ->
  forall a b, (a < nc Y)%nat -> (b < nc Y)%nat -> rsum J (fun j => ent Y j a * ent Y j b) = INR J / (4 * PI) * delta a b.
Proof.
  intros R HJ H a b Ha Hb. rewrite <- (H a b Ha Hb), R. rewrite (rsum_ext J (fun j => nth j (equal_weights J) 0 * (ent Y j a * ent Y j b)) (fun j => 4 * PI / INR J * (ent Y j a * ent Y j b))).
  - rewrite rsum_scal. assert (INR J <> 0) by (apply not_0_INR; lia). field. split; auto. apply PI_neq0.
  - intros j Hj. rewrite nth_equal_weights by auto. reflexivity.
Qed.


Lemma fb_pieces N azi zen c Y : sh_matrix N azi zen = Ok Y -> nr Y = length azi -> nc Y = ((N + 1) ^ 2)%nat -> length c = (N + 1)%nat ->
  exists A S, row_scale (repeat_per_order c) Y = Ok A /\ row_scale (repeat_per_order (map (fun x => 1 / (x / nth 0 c 0)) c)) Y = Ok S /\
    nr A = length azi /\ nc A = ((N + 1) ^ 2)%nat /\ nr S = length azi /\ nc S = ((N + 1) ^ 2)%nat /\
    (forall i n k, (n <= N)%nat -> (k < 2 * n + 1)%nat -> ent A i (n * n + k) = nth n c 0 * ent Y i (n * n + k) /\
       ent S i (n * n + k) = 1 / (nth n c 0 / nth 0 c 0) * ent Y i (n * n + k)).
Proof.
  intros EY R C L. rewrite sq2 in C |- *.
  destruct (row_scale_ok (repeat_per_order c) Y) as (A & EA & RA & CA & HA); [rewrite rpo_length, L; auto|].
  destruct (row_scale_ok (repeat_per_order (map (fun x => 1 / (x / nth 0 c 0)) c)) Y) as (S & ES & RS & CS & HS); [rewrite rpo_length, map_length, L; auto|].
  exists A, S. split; auto. split; auto. split; [congruence|]. split; [congruence|]. split; [congruence|]. split; [congruence|].
  intros i n k Hn Hk.
  assert (B : (n * n + k < nc Y)%nat).
  { rewrite C. assert ((n + 1) * (n + 1) <= (N + 1) * (N + 1))%nat by (apply Nat.mul_le_mono; lia). lia. }
  rewrite HA, HS by auto. rewrite !rpo_nth; rewrite ?map_length; auto; try lia.
  rewrite (nth_map_in (fun x => 1 / (x / nth 0 c 0)) c n 0 0) by lia. auto.
Qed.

Lemma fb_product N azi zen c Y A S b : sh_matrix N azi zen = Ok Y -> nr Y = length azi -> nc Y = ((N + 1) ^ 2)%nat ->
  (forall x, In x c -> x <> 0) -> length c = (N + 1)%nat ->
  nr A = length azi -> nc A = ((N + 1) ^ 2)%nat -> nr S = length azi -> nc S = ((N + 1) ^ 2)%nat ->
  (forall i n k, (n <= N)%nat -> (k < 2 * n + 1)%nat -> ent A i (n * n + k) = nth n c 0 * ent Y i (n * n + k) /\
       ent S i (n * n + k) = 1 / (nth n c 0 / nth 0 c 0) * ent Y i (n * n + k)) ->
  sector_grid Y (length azi) ->
  exists P, matmul (mscal b (mtr S)) A = Ok P /\ nr P = ((N + 1) ^ 2)%nat /\ nc P = ((N + 1) ^ 2)%nat /\
    forall i j, (i < (N + 1) ^ 2)%nat -> (j < (N + 1) ^ 2)%nat -> ent P i j = b * nth 0 c 0 * (INR (length azi) / (4 * PI)) * delta i j.
Proof.
  intros EY R C HN L RA CA RS CS HE HG. rewrite matmul_ok by (cbn [nc nr mscal mtr]; congruence). eexists. split; [reflexivity|].
  cbn [nr nc mscal mtr ent]. split; auto. split; auto. intros i j Hi Hj.
  destruct (acn_decomp N i Hi) as (n & k & Hn & Hk & ->). destruct (acn_decomp N j Hj) as (n' & k' & Hn' & Hk' & ->).
  assert (NZ : forall n, (n <= N)%nat -> nth n c 0 <> 0) by (intros q Hq; apply HN, nth_In; lia).
  rewrite RS. rewrite (rsum_ext _ _ (fun q => b * (1 / (nth n c 0 / nth 0 c 0)) * nth n' c 0 * (ent Y q (n * n + k) * ent Y q (n' * n' + k')))).
  - rewrite rsum_scal, HG by congruence. pose proof PI_neq0. 
    destruct (Nat.eq_dec n n') as [<-|D].
    + field. repeat split; auto. apply NZ; lia.
    + rewrite delta_diff; [ring|]. intros E. apply acn_uniq in E; auto. lia.
  - intros q _. destruct (HE q n k Hn Hk) as [_ E1]. destruct (HE q n' k' Hn' Hk') as [E2 _]. rewrite E1, E2. ring.
Qed.

Lemma existsb_nonzero c : (forall x : R, In x c -> x <> 0) -> existsb (fun x => Reqb x 0) c = false.
Proof.
  intros H. induction c as [|x c IH]; [reflexivity|]. simpl. rewrite IH by (intros; apply H; simpl; auto).
  replace (Reqb x 0) with false; [reflexivity|]. symmetry. apply Reqb_false. apply H. simpl; auto.
Qed.

Lemma first_entry N azi zen Y : length zen = length azi -> zeniths zen -> (0 < length azi)%nat -> sh_matrix N azi zen = Ok Y -> ent Y 0 0 = / sqrt (4 * PI).
Proof.
  intros L Z H EY. destruct (sh_matrix_ok N azi zen L) as (Y2 & E2 & _ & _ & HY). rewrite EY in E2. injection E2 as <-.
  pose proof (HY 0%nat 0%nat 0%nat ltac:(lia) ltac:(lia) ltac:(lia)) as X. simpl (0 * 0 + 0)%nat in X. simpl (Z.of_nat 0 - Z.of_nat 0)%Z in X. rewrite X. rewrite sh_real_Yz, Yz00; auto. apply zeniths_nth; auto; lia.
Qed.

Lemma recon_amp A J : (0 < nc A)%nat ->
  reconstruction_factor (map (ent A 0) (seq 0 (nc A))) J MAmplitude = Ok (np_div (sqrt (4 * PI)) (ent A 0 0 * INR J)).
Proof. intros H. destruct (nc A); [lia|]. reflexivity. Qed.
Theorem fb_perfect pinv N azi zen c Y : length zen = length azi -> zeniths zen -> (0 < length azi)%nat ->
  sh_matrix N azi zen = Ok Y -> sector_grid Y (length azi) -> length c = (N + 1)%nat -> (forall x, In x c -> x <> 0) ->
  exists A B P, design_sph_filterbank pinv N azi zen c MPerfect = Ok (Some (A, B)) /\
    nr A = length azi /\ nc A = ((N + 1) ^ 2)%nat /\ nr B = ((N + 1) ^ 2)%nat /\ nc B = length azi /\
    matmul B A = Ok P /\ is_identity ((N + 1) ^ 2) P.
Proof.
  intros L Z HJ EY HG Lc Hc. destruct (sh_matrix_ok N azi zen L) as (Y2 & E2 & R & C & _). rewrite EY in E2. injection E2 as <-.
  destruct (fb_pieces N azi zen c Y EY R C Lc) as (A & S & EA & ES & RA & CA & RS & CS & HE).
  unfold design_sph_filterbank. rewrite EY. cbn [bind]. rewrite EA. cbn [bind]. destruct (Nat.eqb_spec (length azi) 0); [lia|].
  pose proof (sq_ge1 N) as G1. rewrite recon_amp by lia. cbn [bind].
  rewrite ES. cbn [bind]. rewrite (existsb_nonzero c Hc).
  assert (A0 : ent A 0 0 = nth 0 c 0 * / sqrt (4 * PI)).
  { pose proof (HE 0%nat 0%nat 0%nat ltac:(lia) ltac:(lia)) as [X _]. simpl in X. rewrite X, (first_entry N azi zen Y); auto. }
  assert (C0 : nth 0 c 0 <> 0) by (apply Hc, nth_In; lia).
  destruct s4 as [P4 Q4]. assert (JP : 0 < INR (length azi)) by (apply lt_0_INR; lia). pose proof PI_RGT_0.
  assert (AN : ent A 0 0 * INR (length azi) <> 0).
  { rewrite A0. apply Rmult_integral_contrapositive_currified; [|lra]. apply Rmult_integral_contrapositive_currified; auto. apply Rinv_neq_0_compat. lra. }
  unfold np_div. replace (Reqb (ent A 0 0 * INR (length azi)) 0) with false by (symmetry; apply Reqb_false; auto).
  destruct (fb_product N azi zen c Y A S (sqrt (4 * PI) / (ent A 0 0 * INR (length azi))) EY R C Hc Lc RA CA RS CS HE HG) as (P & EP & RP & CP & HP).
  exists A, (mscal (sqrt (4 * PI) / (ent A 0 0 * INR (length azi))) (mtr S)), P.
  split; [reflexivity|]. split; auto. split; auto. split; auto. split; auto. split; auto.
  split; auto. split; auto. intros i j Hi Hj. rewrite HP by auto. rewrite A0.
  replace (sqrt (4 * PI) / (nth 0 c 0 * / sqrt (4 * PI) * INR (length azi)) * nth 0 c 0 * (INR (length azi) / (4 * PI)))
    with ((sqrt (4 * PI) * sqrt (4 * PI)) / (4 * PI)) by (field; repeat split; lra).
  rewrite Q4. field. lra.
Qed.

Lemma fb_energy_sum N azi zen Y c A i : length zen = length azi -> zeniths zen -> (i < length azi)%nat -> sh_matrix N azi zen = Ok Y ->
  (forall i n k, (n <= N)%nat -> (k < 2 * n + 1)%nat -> ent A i (n * n + k) = nth n c 0 * ent Y i (n * n + k)) -> nc A = ((N + 1) ^ 2)%nat ->
  lsum (map (fun x => x * x) (map (ent A i) (seq 0 (nc A)))) = rsum (N + 1) (fun n => (2 * INR n + 1) / (4 * PI) * (nth n c 0 * nth n c 0)).
Proof.
  intros L Z Hi EY HE CA. destruct (sh_matrix_ok N azi zen L) as (Y2 & E2 & _ & _ & HY). rewrite EY in E2. injection E2 as <-.
  rewrite lsum_rsum, !map_length, seq_length, CA.
  rewrite (rsum_ext _ _ (fun q => ent A i q * ent A i q)).
  - rewrite sq2, rsum_acn. apply rsum_ext. intros n Hn.
    rewrite (rsum_ext _ _ (fun k => (nth n c 0 * nth n c 0) * (Yz n (Z.of_nat k - Z.of_nat n) (sph2cart (nth i azi 0) (nth i zen 0) 1) * Yz n (Z.of_nat k - Z.of_nat n) (sph2cart (nth i azi 0) (nth i zen 0) 1)))).
    + rewrite rsum_scal. pose proof (Yz_addition n (sph2cart (nth i azi 0) (nth i zen 0) 1) (sph2cart (nth i azi 0) (nth i zen 0) 1)) as AD.
      unfold zs in AD. rewrite AD, unit_dir, Rmult_1_r, <- legendre_Q, legendre_one. ring.
    + intros k Hk. rewrite HE by (auto; lia). rewrite HY by (auto; lia). rewrite sh_real_Yz by (apply zeniths_nth; auto; lia). ring.
  - intros q Hq. rewrite (nth_map_in (fun x => x * x) _ q 0 0) by (rewrite map_length, seq_length; auto). rewrite nth_map_seq by auto. reflexivity.
Qed.
Theorem fb_energy pinv N azi zen c Y : length zen = length azi -> zeniths zen -> (0 < length azi)%nat ->
  sh_matrix N azi zen = Ok Y -> sector_grid Y (length azi) -> length c = (N + 1)%nat -> (forall x, In x c -> x <> 0) ->
  exists A B P, design_sph_filterbank pinv N azi zen c MEnergy = Ok (Some (A, B)) /\
    nr A = length azi /\ nc A = ((N + 1) ^ 2)%nat /\ nr B = ((N + 1) ^ 2)%nat /\ nc B = length azi /\
    matmul B A = Ok P /\
    is_multiple (nth 0 c 0 * sqrt (INR (length azi)) / sqrt (rsum (N + 1) (fun n => (2 * INR n + 1) * (nth n c 0 * nth n c 0)))) (meye ((N + 1) ^ 2)) P.
Proof.
  intros L Z HJ EY HG Lc Hc. destruct (sh_matrix_ok N azi zen L) as (Y2 & E2 & R & C & _). rewrite EY in E2. injection E2 as <-.
  destruct (fb_pieces N azi zen c Y EY R C Lc) as (A & S & EA & ES & RA & CA & RS & CS & HE).
  unfold design_sph_filterbank. rewrite EY. cbn [bind]. rewrite EA. cbn [bind]. destruct (Nat.eqb_spec (length azi) 0); [lia|].
  destruct (Nat.eqb_spec (length c) 0); [lia|].
  cbn [reconstruction_factor bind]. rewrite ES. cbn [bind]. rewrite (existsb_nonzero c Hc).
  rewrite (fb_energy_sum N azi zen Y c A 0%nat) by (auto; intros; apply HE; auto).
  set (T := rsum (N + 1) (fun n => (2 * INR n + 1) * (nth n c 0 * nth n c 0))).
  pose proof PI_RGT_0 as PP. assert (JP : 0 < INR (length azi)) by (apply lt_0_INR; lia).
  assert (ET : rsum (N + 1) (fun n => (2 * INR n + 1) / (4 * PI) * (nth n c 0 * nth n c 0)) = / (4 * PI) * T).
  { unfold T. rewrite <- rsum_scal. apply rsum_ext. intros; field; lra. }
  rewrite ET.
  assert (C0 : nth 0 c 0 <> 0) by (apply Hc, nth_In; lia).
  assert (TP : 0 < T).
  { assert (TG : forall n, (n < N + 1)%nat -> 0 <= (2 * INR n + 1) * (nth n c 0 * nth n c 0)).
    { intros q _. apply Rmult_le_pos; [pose proof (pos_INR q); lra|apply Rle_0_sqr]. }
    pose proof (rsum_ge_term (N + 1) (fun n => (2 * INR n + 1) * (nth n c 0 * nth n c 0)) 0%nat TG ltac:(lia)) as X.
    fold T in X. cbv beta in X. change (INR 0) with 0 in X. assert (0 < nth 0 c 0 * nth 0 c 0) by (apply Rlt_0_sqr; auto). lra. }
  assert (DP : 0 < / (4 * PI) * T * INR (length azi)).
  { apply Rmult_lt_0_compat; auto. apply Rmult_lt_0_compat; auto. apply Rinv_0_lt_compat; lra. }
  unfold np_div. replace (Reqb (/ (4 * PI) * T * INR (length azi)) 0) with false by (symmetry; apply Reqb_false; lra).
  set (b := sqrt (4 * PI / (/ (4 * PI) * T * INR (length azi)))).
  destruct (fb_product N azi zen c Y A S b EY R C Hc Lc RA CA RS CS HE HG) as (P & EP & RP & CP & HP).
  exists A, (mscal b (mtr S)), P. split; [reflexivity|]. split; auto. split; auto. split; auto. split; auto. split; auto.
  split; auto. split; auto. cbn [nr nc meye mdiag ent]. intros i j Hi Hj. rewrite HP by auto. unfold delta.
  assert (EB : b * (INR (length azi) / (4 * PI)) = sqrt (INR (length azi)) / sqrt T).
  { assert (SJ : 0 < sqrt (INR (length azi))) by (apply sqrt_lt_R0; auto). assert (ST : 0 < sqrt T) by (apply sqrt_lt_R0; auto).
    assert (JJ : sqrt (INR (length azi)) * sqrt (INR (length azi)) = INR (length azi)) by (apply sqrt_sqrt; lra).
    assert (TT : sqrt T * sqrt T = T) by (apply sqrt_sqrt; lra).
    unfold b. replace (4 * PI / (/ (4 * PI) * T * INR (length azi))) with (((4 * PI) / (sqrt T * sqrt (INR (length azi)))) * ((4 * PI) / (sqrt T * sqrt (INR (length azi))))).
    - rewrite sqrt_square.
      + replace (4 * PI / (sqrt T * sqrt (INR (length azi))) * (INR (length azi) / (4 * PI))) with (INR (length azi) / (sqrt T * sqrt (INR (length azi)))) by (field; repeat split; lra).
        rewrite <- JJ at 1. field. split; lra.
      + left. apply Rdiv_lt_0_compat; [lra|]. apply Rmult_lt_0_compat; auto.
    - transitivity ((4 * PI) * (4 * PI) / ((sqrt T * sqrt T) * (sqrt (INR (length azi)) * sqrt (INR (length azi))))); [field; split; lra|].
      rewrite TT, JJ. field. repeat split; lra. }
  transitivity (nth 0 c 0 * (b * (INR (length azi) / (4 * PI))) * (if Nat.eqb i j then 1 else 0)); [ring|]. rewrite EB. unfold Rdiv. ring.
Qed.
Lemma fb_signal B A P K (X S : mat) : matmul B A = Ok P -> is_identity K P -> nr A = nc B -> nr X = K -> nc A = K ->
  matmul A X = Ok S -> exists X', matmul B S = Ok X' /\ meq X' X.
Proof.
  intros EP (RP & CP & HP) HAB HX HA ES. unfold matmul in ES. rewrite HA, HX, Nat.eqb_refl in ES. injection ES as <-.
  unfold matmul in EP. rewrite <- HAB, Nat.eqb_refl in EP. injection EP as <-. cbn [nr nc ent] in *.
  rewrite matmul_ok by (cbn [nr]; auto). eexists. split; [reflexivity|]. split; [cbn [nr]; congruence|]. split; [reflexivity|].
  cbn [nr nc ent]. intros i j Hi Hj. rewrite RP in Hi. rewrite <- HAB in *.
  rewrite (rsum_ext _ _ (fun q => rsum K (fun k => ent B i q * ent A q k * ent X k j))) by (intros; rewrite <- rsum_scal; apply rsum_ext; intros; ring).
  rewrite rsum_swap. rewrite (rsum_ext K _ (fun k => delta i k * ent X k j)).
  - rewrite (rsum_delta_l K i (fun k => ent X k j)) by auto. reflexivity.
  - intros k Hk. rewrite rsum_scal_r, HP by auto. reflexivity.
Qed.

(** ** products *)
Notation synth := (field_value sh_real).

Lemma synth_span N a : span N (fun v => rsum (N + 1) (fun l => zs l (fun m => nth (l * l + Z.to_nat (m + Z.of_nat l)) a 0 * Yz l m v))).
Proof. exists (fun l m => nth (l * l + Z.to_nat (m + Z.of_nat l)) a 0). reflexivity. Qed.
Lemma synth_Yz N a azi zen : 0 <= sin zen ->
  synth N a azi zen = rsum (N + 1) (fun l => zs l (fun m => nth (l * l + Z.to_nat (m + Z.of_nat l)) a 0 * Yz l m (sph2cart azi zen 1))).
Proof.
  intros H. unfold field_value, zs. apply rsum_ext. intros n _. apply rsum_ext. intros k Hk. rewrite sh_real_Yz by auto.
  replace (Z.to_nat (Z.of_nat k - Z.of_nat n + Z.of_nat n)) with k by lia. reflexivity.
Qed.
Lemma inverse_sht_col a N azi zen : length a = ((N + 1) ^ 2)%nat -> length zen = length azi ->
  exists f, inverse_sht (Mat (length a) 1 (fun i _ => nth i a 0)) azi zen None None = Ok f /\ nr f = length azi /\ nc f = 1%nat /\
    forall i, (i < length azi)%nat -> ent f i 0 = synth N a (nth i azi 0) (nth i zen 0).
Proof.
  intros La L. rewrite (inverse_sht_infers _ N) by auto.
  destruct (sh_matrix_ok N azi zen L) as (Y & EY & R & C & HY).
  destruct (inverse_sht_ok (Mat (length a) 1 (fun i _ => nth i a 0)) N azi zen Y EY C) as (f & Ef & Rf & Cf & Hf); [cbn [nr]; lia|].
  exists f. split; auto. split; [congruence|]. split; auto. intros i Hi. rewrite Hf. cbn [ent]. rewrite sq2, rsum_acn. unfold field_value.
  apply rsum_ext. intros n Hn. apply rsum_ext. intros k Hk. rewrite HY by (auto; lia). ring.
Qed.

Lemma vec2dir_dir v : dot3 v v = 1 -> exists zen, vec2dir v = (fst (vec2dir v), Some zen) /\ 0 <= zen <= PI /\ sph2cart (fst (vec2dir v)) zen 1 = v.
Proof.
  intros U. assert (EV : v = (vx v, vy v, vz v)) by (destruct v as [[a b] c]; reflexivity).
  assert (NZ : v <> (0, 0, 0)) by (intros E; rewrite E in U; unfold dot3, vx, vy, vz in U; simpl in U; lra).
  destruct (cart_sph_cart (vx v) (vy v) (vz v) false false) as (azi & zen & r & E & S); [rewrite <- EV; auto|discriminate|].
  destruct (cart2sph_ranges _ _ _ _ _ _ _ _ E) as (_ & Hr & Hrr & Hz).
  assert (r = 1) by (unfold dot3 in U; assert (r * r = 1) by lra; nra). subst r.
  unfold vec2dir. rewrite cart2dir_cart2sph, E. cbn [fst snd]. exists zen. split; auto. split; auto. rewrite S. auto.
Qed.

Theorem sh_mult_product t_design N1 N2 a b v : let N := (N1 + N2)%nat in
  let azi := map (fun u => fst (vec2dir u)) v in
  let zen := map (fun u => match snd (vec2dir u) with Some z => z | None => 0 end) v in
  length a = ((N1 + 1) ^ 2)%nat -> length b = ((N2 + 1) ^ 2)%nat ->
  t_design (2 * Z.of_nat N)%Z = Ok v -> (forall u, In u v -> dot3 u u = 1) ->
  exact_for sh_real (2 * N) azi zen (equal_weights (length v)) ->
  exists c, sh_mult t_design a b = Ok c /\ length c = ((N + 1) ^ 2)%nat /\
    forall az ze, 0 <= ze <= PI -> synth N c az ze = synth N1 a az ze * synth N2 b az ze.
Proof.
  intros N azi zen La Lb ET HU HX. unfold sh_mult. rewrite La, Lb, !order_of_sq.
  replace (Z.of_nat N1 + Z.of_nat N2)%Z with (Z.of_nat N) by (unfold N; lia). rewrite ET. cbn [bind]. rewrite !map_map. fold azi zen.
  assert (Lz : length zen = length azi) by (unfold zen, azi; rewrite !map_length; auto).
  assert (LA : length azi = length v) by (unfold azi; apply map_length).
  rewrite <- La, <- Lb.
  destruct (inverse_sht_col a N1 azi zen La Lz) as (fa & Ea & Ra & Ca & Ha). rewrite Ea. cbn [bind].
  destruct (inverse_sht_col b N2 azi zen Lb Lz) as (fb & Eb & Rb & Cb & Hb). rewrite Eb. cbn [bind].
  rewrite Nat2Z.id. destruct (gram_grid N azi zen _ HX) as (Y & EY & RY & CY & HO).
  set (f := Mat (nr fa) (nc fa) (fun i j => ent fa i j * ent fb i j)).
  destruct (sht_default f N azi zen Y EY) as (F & EF & RF & CF & HF); [unfold f; cbn [nr]; congruence|]. rewrite EF. cbn [bind].
  set (c := map (fun i => ent F i 0) (seq 0 (nr F))).
  assert (Lc : length c = ((N + 1) ^ 2)%nat) by (unfold c; rewrite map_length, seq_length; congruence).
  exists c. split; auto. split; auto. intros az ze Hz.
  (* the product as an expansion *)
  destruct (span_mul N1 N2 _ _ (synth_span N1 a) (synth_span N2 b)) as (d & Hd). fold N in Hd.
  assert (PR : forall az ze, 0 <= sin ze -> synth N1 a az ze * synth N2 b az ze =
       rsum (N + 1) (fun l => rsum (2 * l + 1) (fun k => d l (Z.of_nat k - Z.of_nat l)%Z * sh_real l (Z.of_nat k - Z.of_nat l) az ze))).
  { intros az' ze' Hz'. rewrite !synth_Yz by auto. rewrite (Hd (sph2cart az' ze' 1) (unit_dir az' ze')). apply rsum_ext. intros l _.
    unfold zs. apply rsum_ext. intros k _. rewrite sh_real_Yz by auto. reflexivity. }
  rewrite PR by (apply sin_nonneg; auto). unfold field_value. apply rsum_ext. intros n Hn. apply rsum_ext. intros k Hk. f_equal.
  destruct (sh_matrix_ok N azi zen Lz) as (Y2 & EY2 & _ & _ & HY). rewrite EY in EY2. injection EY2 as <-.
  destruct HX as (_ & _ & HZ & _ & _).
  assert (IK : (n * n + k < (N + 1) ^ 2)%nat).
  { rewrite sq2. assert ((n + 1) * (n + 1) <= (N + 1) * (N + 1))%nat by (apply Nat.mul_le_mono; lia). lia. }
  unfold c. rewrite nth_map_seq by congruence. rewrite HF. change (nr f) with (nr fa). rewrite Ra.
  (* expand *)
  rewrite (rsum_ext (length azi) _ (fun q => rsum ((N + 1) ^ 2) (fun j => nth q (equal_weights (length v)) 0 * (ent Y q (n * n + k) * ent Y q j) *
       (let (l, m) := nth j (acn_list N) (O, 0%Z) in d l m)))).
  - rewrite rsum_swap. rewrite (rsum_ext ((N + 1) ^ 2) _ (fun j => delta (n * n + k) j * (let (l, m) := nth j (acn_list N) (O, 0%Z) in d l m))).
    + rewrite rsum_delta_l by auto. rewrite acn_nth by (auto; lia). reflexivity.
    + intros j Hj. rewrite rsum_scal_r. f_equal. rewrite <- RY. apply HO; congruence.
  - intros q Hq. change (ent f q 0) with (ent fa q 0 * ent fb q 0). rewrite Ha, Hb, PR by (auto; apply zeniths_nth; auto; lia).
    rewrite nth_equal_weights by lia. rewrite LA. rewrite sq2, rsum_acn.
    rewrite <- rsum_scal, <- rsum_scal. apply rsum_ext. intros l Hl. rewrite <- !rsum_scal. apply rsum_ext. intros i Hi.
    rewrite acn_nth by (auto; lia). rewrite (HY q l i) by (auto; lia). ring.
Qed.

(** ** rE *)
Lemma vsum_comp (l : list V3) : vsum l = (lsum (map vx l), lsum (map vy l), lsum (map vz l)).
Proof.
  induction l as [|v l IH]; [reflexivity|]. unfold vsum in *. cbn [fold_right]. rewrite IH. destruct v as [[a b] c].
  unfold add3, vx, vy, vz. simpl. reflexivity.
Qed.
Lemma weighted_comp (g2 : list R) (p : list V3) (f : V3 -> R) (Hs : forall s v, f (scal3 s v) = s * f v) : length g2 = length p ->
  lsum (map f (map (fun ab => scal3 (fst ab) (snd ab)) (combine g2 p))) = rsum (length p) (fun i => nth i g2 0 * f (nth i p (0, 0, 0))).
Proof.
  revert p. induction g2 as [|x g2 IH]; intros [|v p] L; try discriminate; [reflexivity|]. simpl length. rewrite rsum_shift. simpl.
  rewrite Hs, IH by (simpl in L; lia). reflexivity.
Qed.
Lemma lsum_sq_0 g : lsum (map (fun x : R => x * x) g) = 0 <-> forall x, In x g -> x = 0.
Proof.
  induction g as [|x g IH]; simpl.
  - split; [intros _ x []|reflexivity].
  - assert (N : forall l, 0 <= lsum (map (fun x : R => x * x) l)).
    { induction l as [|y l IHl]; simpl; [lra|]. pose proof (Rle_0_sqr y). unfold Rsqr in *. lra. }
    pose proof (N g). pose proof (Rle_0_sqr x) as Q. unfold Rsqr in Q. split.
    + intros E. assert (x * x = 0) by lra. assert (E2 : lsum (map (fun x : R => x * x) g) = 0) by lra. intros y [<-|Hy]; [nra|]. apply IH; auto.
    + intros E. rewrite (proj2 IH) by auto. rewrite (E x) by auto. ring.
Qed.
Theorem rE_convex p g : length p = length g -> (exists x, In x g /\ x <> 0) ->
  exists v, r_E_row p g = (Some v, norm3 v) /\ convex_comb p v.
Proof.
  intros L (x0 & Hx & Nx). unfold r_E_row. set (g2 := map (fun x => x * x) g). set (E := lsum g2).
  assert (EN : E <> 0) by (intros Z; apply Nx; apply (proj1 (lsum_sq_0 g) Z); auto).
  replace (Reqb E 0) with false by (symmetry; apply Reqb_false; auto). eexists. split; [reflexivity|].
  assert (LG : length g2 = length p) by (unfold g2; rewrite map_length; auto).
  assert (G0 : forall y, In y g2 -> 0 <= y) by (intros y Hy; unfold g2 in Hy; apply in_map_iff in Hy; destruct Hy as (z & <- & _); apply Rle_0_sqr).
  assert (EP : 0 < E).
  { assert (0 <= E); [|lra]. unfold E. rewrite lsum_rsum. apply rsum_nonneg. intros i Hi. apply G0, nth_In; auto. }
  exists (map (fun y => y / E) g2). split; [rewrite map_length; auto|]. split; [|split].
  - intros y Hy. apply in_map_iff in Hy. destruct Hy as (z & <- & Hz). apply Rmult_le_pos; [auto|left; apply Rinv_0_lt_compat; auto].
  - transitivity (lsum g2 / E); [|unfold E; field; auto]. rewrite !lsum_rsum, map_length. unfold Rdiv at 2. rewrite <- rsum_scal_r. apply rsum_ext.
    intros i Hi. rewrite (nth_map_in (fun y => y / E) g2 i 0 0) by auto. reflexivity.
  - rewrite vsum_comp.
    rewrite (weighted_comp g2 p vx), (weighted_comp g2 p vy), (weighted_comp g2 p vz) by (auto; intros s [[? ?] ?]; unfold scal3, vx, vy, vz; simpl; ring).
    unfold scal3, vx, vy, vz; cbn [fst snd].
    f_equal; [f_equal|]; rewrite <- rsum_scal; apply rsum_ext; intros i Hi; rewrite (nth_map_in (fun y => y / E) g2 i 0 0) by lia; field; auto.
Qed.
Lemma norm3_add u v : norm3 (add3 u v) <= norm3 u + norm3 v.
Proof.
  assert (NN : forall w, 0 <= norm3 w) by (intros; unfold norm3; apply sqrt_pos).
  assert (SQ : forall w, norm3 w * norm3 w = dot3 w w) by (intros w; unfold norm3; apply sqrt_sqrt; destruct w as [[a b] c]; unfold dot3, vx, vy, vz; simpl; nra).
  apply Rsqr_incr_0_var; [|pose proof (NN u); pose proof (NN v); lra]. unfold Rsqr. rewrite SQ.
  pose proof (dot3_cs u v) as CS. pose proof (SQ u) as U. pose proof (SQ v) as V.
  assert (EX : dot3 (add3 u v) (add3 u v) = dot3 u u + 2 * dot3 u v + dot3 v v).
  { destruct u as [[? ?] ?], v as [[? ?] ?]; unfold add3, dot3, vx, vy, vz; simpl; ring. }
  rewrite EX. unfold Rsqr in CS. 
  assert (D : dot3 u v <= norm3 u * norm3 v).
  { apply Rle_trans with (Rabs (dot3 u v)); [apply Rle_abs|]. apply Rsqr_incr_0_var; [|apply Rmult_le_pos; apply NN].
    rewrite <- Rsqr_abs. unfold Rsqr. nra. }
  nra.
Qed.
Lemma dot3_norms u v : dot3 u v <= norm3 u * norm3 v.
Proof.
  apply Rle_trans with (Rabs (dot3 u v)); [apply Rle_abs|]. apply Rsqr_incr_0_var; [|apply Rmult_le_pos; apply norm3_nonneg].
  rewrite <- Rsqr_abs. unfold Rsqr. pose proof (dot3_cs u v). rewrite <- !norm3_sq in H. lra.
Qed.
Theorem convex_norm p v rho : (forall u, In u p -> norm3 u <= rho) -> convex_comb p v -> norm3 v <= rho.
Proof.
  intros HB (lam & L & L0 & L1 & EV).
  assert (D : dot3 v v <= rho * norm3 v).
  { assert (EX : dot3 v v = rsum (length p) (fun i => nth i lam 0 * dot3 (nth i p (0, 0, 0)) v)).
    { transitivity (vx v * rsum (length p) (fun i => nth i lam 0 * vx (nth i p (0, 0, 0))) + vy v * rsum (length p) (fun i => nth i lam 0 * vy (nth i p (0, 0, 0)))
         + vz v * rsum (length p) (fun i => nth i lam 0 * vz (nth i p (0, 0, 0)))).
      - transitivity (vx v * vx v + vy v * vy v + vz v * vz v); [reflexivity|].
        assert (X : vx v = rsum (length p) (fun i => nth i lam 0 * vx (nth i p (0, 0, 0)))) by (rewrite EV; reflexivity).
        assert (Y : vy v = rsum (length p) (fun i => nth i lam 0 * vy (nth i p (0, 0, 0)))) by (rewrite EV; reflexivity).
        assert (W : vz v = rsum (length p) (fun i => nth i lam 0 * vz (nth i p (0, 0, 0)))) by (rewrite EV; reflexivity).
        rewrite <- X, <- Y, <- W. reflexivity.
      - rewrite <- !rsum_scal, <- !rsum_plus. apply rsum_ext. intros i _. unfold dot3. ring. }
    rewrite EX. apply Rle_trans with (rsum (length p) (fun i => nth i lam 0 * (rho * norm3 v))).
    - apply rsum_le. intros i Hi. apply Rmult_le_compat_l; [apply L0, nth_In; lia|].
      apply Rle_trans with (norm3 (nth i p (0, 0, 0)) * norm3 v); [apply dot3_norms|]. apply Rmult_le_compat_r; [apply norm3_nonneg|]. apply HB, nth_In; auto.
    - rewrite (rsum_scal_r (length p) (rho * norm3 v) (fun i => nth i lam 0)), <- L, <- lsum_rsum, L1. lra. }
  rewrite <- norm3_sq in D. destruct (norm3_nonneg v) as [P|P]; [apply Rmult_le_reg_r with (norm3 v); auto|].
  rewrite <- P. destruct p as [|u p].
  - simpl in L. destruct lam; [simpl in L1; lra|discriminate].
  - apply Rle_trans with (norm3 u); [apply norm3_nonneg|]. apply HB. simpl; auto.
Qed.
Lemma rE_zero p g : (forall x, In x g -> x = 0) -> r_E_row p g = (None, 0).
Proof.
  intros H. unfold r_E_row. rewrite (proj2 (lsum_sq_0 g) H). replace (Reqb 0 0) with true by (symmetry; apply Reqb_true; auto). reflexivity.
Qed.
Lemma rE_scale p g k : k <> 0 -> length p = length g -> r_E_row p (map (Rmult k) g) = r_E_row p g.
Proof.
  intros K L. unfold r_E_row. rewrite map_map.
  assert (E1 : lsum (map (fun x => k * x * (k * x)) g) = (k * k) * lsum (map (fun x => x * x) g)).
  { rewrite !lsum_rsum, !map_length, <- rsum_scal. apply rsum_ext. intros i Hi.
    rewrite (nth_map_in (fun x => k * x * (k * x)) g i 0 0), (nth_map_in (fun x => x * x) g i 0 0) by auto. ring. }
  rewrite E1. set (E := lsum (map (fun x => x * x) g)). assert (KK : k * k <> 0) by (apply Rmult_integral_contrapositive_currified; auto).
  destruct (Req_dec E 0) as [Z|NZ].
  - rewrite Z, Rmult_0_r. replace (Reqb 0 0) with true by (symmetry; apply Reqb_true; auto). reflexivity.
  - replace (Reqb (k * k * E) 0) with false by (symmetry; apply Reqb_false; apply Rmult_integral_contrapositive_currified; auto).
    replace (Reqb E 0) with false by (symmetry; apply Reqb_false; auto).
    match goal with |- (Some ?a, _) = (Some ?b, _) => assert (EQ : a = b) end.
    { rewrite !vsum_comp.
      assert (F : forall f : V3 -> R, (forall s v, f (scal3 s v) = s * f v) ->
         lsum (map f (map (fun ab => scal3 (fst ab) (snd ab)) (combine (map (fun x => k * x * (k * x)) g) p))) = k * k * lsum (map f (map (fun ab => scal3 (fst ab) (snd ab)) (combine (map (fun x => x * x) g) p)))).
      { intros f Hf. rewrite !weighted_comp by (auto; rewrite map_length; auto). rewrite <- rsum_scal. apply rsum_ext. intros i Hi.
        rewrite (nth_map_in (fun x => k * x * (k * x)) g i 0 0), (nth_map_in (fun x => x * x) g i 0 0) by lia. ring. }
      rewrite (F vx), (F vy), (F vz) by (intros s [[? ?] ?]; unfold scal3, vx, vy, vz; simpl; ring).
      unfold scal3, vx, vy, vz; cbn [fst snd]. f_equal; [f_equal|]; field; auto. }
    rewrite EQ. reflexivity.
Qed.

Lemma project_spec x y z : project_on_sphere x y z = if Req_EM_T (dot3 (x, y, z) (x, y, z)) 0 then None else Some (unit3 (x, y, z)).
Proof.
  destruct (Req_EM_T (dot3 (x, y, z) (x, y, z)) 0) as [Z|Z].
  - apply dot3_self_0 in Z. injection Z as -> -> ->. unfold project_on_sphere. unfold cart2sph.
    replace (sqrt (0 ^ 2 + 0 ^ 2 + 0 ^ 2)) with 0 by (symmetry; transitivity (sqrt 0); [f_equal; ring|apply sqrt_0]).
    cbn [negb]. unfold np_div. replace (Reqb 0 0) with true by (symmetry; apply Reqb_true; auto). reflexivity.
  - assert (NZ : (x, y, z) <> (0, 0, 0)) by (intros E; apply Z; rewrite E; unfold dot3, vx, vy, vz; simpl; ring).
    destruct (cart_sph_cart x y z false false NZ ltac:(discriminate)) as (azi & zen & r & E & S).
    destruct (cart2sph_ranges _ _ _ _ _ _ _ _ E) as (_ & Hr & Hrr & Hz).
    unfold project_on_sphere. rewrite E. f_equal. unfold unit3.
    assert (R0 : norm3 (x, y, z) = r).
    { unfold norm3. replace (dot3 (x, y, z) (x, y, z)) with (r * r) by (unfold dot3, vx, vy, vz; simpl; lra). apply sqrt_square; lra. }
    rewrite R0. assert (r <> 0) by (intros ->; apply Z; unfold dot3, vx, vy, vz; simpl; lra).
    rewrite <- S. unfold sph2cart, scal3, vx, vy, vz; cbn [fst snd]. f_equal; [f_equal|]; field; auto.
Qed.
Lemma fb_mode_error pinv N azi zen c Y : sh_matrix N azi zen = Ok Y -> length c = (N + 1)%nat -> nc Y = ((N + 1) ^ 2)%nat ->
  forall m, m = MAmplitude \/ m = MOther -> design_sph_filterbank pinv N azi zen c m = Err ValueError.
Proof.
  intros EY L C m Hm. unfold design_sph_filterbank. rewrite EY. cbn [bind].
  destruct (row_scale_ok (repeat_per_order c) Y) as (A & EA & _); [rewrite rpo_length, L, C, sq2; auto|]. rewrite EA. cbn [bind].
  destruct Hm as [-> | ->]; reflexivity.
Qed.
Lemma fb_pinv pinv N azi zen c Y : sh_matrix N azi zen = Ok Y -> length c = (N + 1)%nat -> nc Y = ((N + 1) ^ 2)%nat ->
  exists A, row_scale (repeat_per_order c) Y = Ok A /\ design_sph_filterbank pinv N azi zen c MPinv = Ok (Some (A, pinv A)).
Proof.
  intros EY L C. unfold design_sph_filterbank. rewrite EY. cbn [bind].
  destruct (row_scale_ok (repeat_per_order c) Y) as (A & EA & _); [rewrite rpo_length, L, C, sq2; auto|]. rewrite EA. cbn [bind]. eauto.
Qed.
(** exact grids of degree 2N are sector grids *)
Lemma exact_sector N azi zen : (0 < length azi)%nat -> exact_for sh_real (2 * N) azi zen (equal_weights (length azi)) ->
  exists Y, sh_matrix N azi zen = Ok Y /\ sector_grid Y (length azi).
Proof.
  intros H X. destruct (gram_grid N azi zen _ X) as (Y & E & R & C & G). exists Y. split; auto. intros a b Ha Hb.
  apply equal_gram; auto.
Qed.
