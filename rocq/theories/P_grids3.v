(** Loaders, weights by pseudo-inverse, consequences for the transform. *)
From Verif Require Import Base BaseFacts M_utils M_sig M_sph0 M_sph M_grids S_sph S_grids P_sph1 P_sph4 P_sph7 P_sph9 P_sph10 P_sph11 P_sph12 P_sph13 X_sph P_grids1 P_grids2.
Open Scope R_scope.

Lemma exact_mono t t' azi zen w : (t' <= t)%nat -> exact_for sh_real t azi zen w -> exact_for sh_real t' azi zen w.
Proof. intros H (A & B & C & D & E). repeat split; auto; try (apply C; auto). intros n m Hn. apply E. lia. Qed.

(** ** loaders *)
Lemma existsb_In d l : existsb (Z.eqb d) l = true <-> In d l.
Proof.
  rewrite existsb_exists. split.
  - intros (x & H & E). apply Z.eqb_eq in E. subst. auto.
  - intros H. exists d. split; auto. apply Z.eqb_refl.
Qed.
Lemma load_next_ok {A} hi lo has (tab : Z -> A) : In hi has -> forall fuel d, (lo <= d <= hi)%Z -> (hi - d < Z.of_nat fuel)%Z ->
  exists r, next_degree has d r /\ (r <= hi)%Z /\ load_next fuel hi lo has tab d = Ok (tab r).
Proof.
  intros HH. induction fuel as [|f IH]; intros d Hd Hf; [lia|]. simpl.
  destruct (Z.ltb_spec hi d); [lia|]. destruct (Z.ltb_spec d lo); [lia|].
  destruct (existsb (Z.eqb d) has) eqn:E.
  - apply existsb_In in E. exists d. split; [split; auto; split; [lia|auto]|]. split; [lia|reflexivity].
  - assert (N : ~ In d has) by (intros I; apply existsb_In in I; congruence).
    assert (d <> hi) by (intros ->; contradiction).
    destruct (IH (d + 1)%Z) as (r & (I1 & I2 & I3) & L & E2); [lia|lia|].
    exists r. split; [|auto]. split; auto. split; [lia|]. intros r' Hr Hl. apply I3; auto. assert (d <> r') by (intros ->; contradiction). lia.
Qed.
Lemma load_next_out {A} hi lo has (tab : Z -> A) fuel d : (d < lo \/ hi < d)%Z -> load_next (S fuel) hi lo has tab d = Err ValueError.
Proof. intros H. simpl. destruct (Z.ltb_spec hi d); auto. destruct (Z.ltb_spec d lo); auto. lia. Qed.
Lemma n_design_top : In 124%Z n_design_degrees.
Proof. apply existsb_In. reflexivity. Qed.
Lemma lebedev_top : In 131%Z lebedev_degrees.
Proof. apply existsb_In. reflexivity. Qed.
Lemma n_design_next tab d : (1 <= d <= 124)%Z -> exists r, next_degree n_design_degrees d r /\ (r <= 124)%Z /\ load_n_design tab d = Ok (tab r).
Proof. intros H. apply load_next_ok; [apply n_design_top|lia|lia]. Qed.
Lemma n_design_out tab d : (d < 1 \/ 124 < d)%Z -> load_n_design tab d = Err ValueError.
Proof. intros H. apply load_next_out. auto. Qed.
Lemma lebedev_next tab d : (3 <= d <= 131)%Z -> exists r v w, next_degree lebedev_degrees d r /\ (r <= 131)%Z /\ load_lebedev tab d = Ok (v, w) /\
  length v = length (tab r) /\ length w = length (tab r) /\
  forall i, (i < length (tab r))%nat -> nth i v (0, 0, 0) = fst (nth i (tab r) (0, 0, 0, 0)) /\ nth i w 0 = 4 * PI * snd (nth i (tab r) (0, 0, 0, 0)).
Proof.
  intros H. destruct (load_next_ok 131 3 lebedev_degrees tab lebedev_top 200 d) as (r & N & L & E); [lia|lia|].
  unfold load_lebedev. rewrite E. exists r, (map fst (tab r)), (map (fun x => 4 * PI * snd x) (tab r)).
  split; auto. split; auto. split; [reflexivity|]. rewrite !map_length. split; auto. split; auto. intros i Hi. split.
  - apply (nth_map_in fst (tab r) i (0, 0, 0) (0, 0, 0, 0)). auto.
  - apply (nth_map_in (fun x => 4 * PI * snd x) (tab r) i 0 (0, 0, 0, 0)). auto.
Qed.
Lemma lebedev_out tab d : (d < 3 \/ 131 < d)%Z -> load_lebedev tab d = Err ValueError.
Proof. intros H. unfold load_lebedev. change 200%nat with (S 199). rewrite load_next_out; auto. Qed.
Lemma t_design_entry {A} (tab : list A) dft d : length tab = 21%nat ->
  ((1 <= d <= 21)%Z -> load_t_design tab d = Ok (nth (Z.to_nat d - 1) tab dft)) /\ ((d < 1 \/ 21 < d)%Z -> load_t_design tab d = Err ValueError).
Proof.
  intros L. unfold load_t_design. split; intros H; destruct (Z.ltb_spec 21 d); destruct (Z.ltb_spec d 1); try lia; auto.
  replace (Z.to_nat (d - 1)) with (Z.to_nat d - 1)%nat by lia. rewrite (nth_error_nth' tab dft) by lia. reflexivity.
Qed.
Lemma fliege_entry tab d : length tab = 30%nat ->
  ((2 <= d <= 30)%Z -> exists v w, load_Fliege_Maier_nodes tab d = Ok (v, w) /\ length v = length w /\ combine v w = nth (Z.to_nat d - 1) tab []) /\
  ((d < 2 \/ 30 < d)%Z -> load_Fliege_Maier_nodes tab d = Err ValueError).
Proof.
  intros L. unfold load_Fliege_Maier_nodes. split; intros H; destruct (Z.ltb_spec 30 d); destruct (Z.ltb_spec d 2); try lia; auto.
  replace (Z.to_nat (d - 1)) with (Z.to_nat d - 1)%nat by lia. rewrite (nth_error_nth' tab []) by lia.
  set (l := nth _ tab []). exists (map fst l), (map snd l). split; [reflexivity|]. split; [rewrite !map_length; reflexivity|].
  clear. induction l as [|[a b] l IH]; [reflexivity|]. simpl. rewrite IH. reflexivity.
Qed.
Lemma maxdet_never d : exists e, load_maxDet d = Err e.
Proof. unfold load_maxDet. destruct (200 <? d)%Z; [eauto|]. destruct (d <? 1)%Z; eauto. Qed.

(** ** weights from the pseudo-inverse *)
Lemma penrose_left A P : penrose A P -> left_invertible A -> forall a b, (a < nc A)%nat -> (b < nc A)%nat -> mprod (nr A) P A a b = delta a b.
Proof.
  intros (RP & CP & P1 & _) (X & HX) a b Ha Hb.
  transitivity (rsum (nr A) (fun i => ent X a i * rsum (nr A) (fun k => mprod (nc A) A P i k * ent A k b))).
  - transitivity (rsum (nr A) (fun k => rsum (nc A) (fun l => delta a l * ent P l k) * ent A k b)).
    + unfold mprod. apply rsum_ext. intros k Hk. rewrite rsum_delta_l; auto.
    + transitivity (rsum (nr A) (fun k => rsum (nr A) (fun i => ent X a i * mprod (nc A) A P i k) * ent A k b)).
      * apply rsum_ext. intros k Hk. f_equal. transitivity (rsum (nc A) (fun l => mprod (nr A) X A a l * ent P l k)); [apply rsum_ext; intros l Hl; rewrite HX; auto|].
        unfold mprod. transitivity (rsum (nc A) (fun l => rsum (nr A) (fun i => ent X a i * (ent A i l * ent P l k)))).
        -- apply rsum_ext. intros l _. rewrite <- rsum_scal_r. apply rsum_ext. intros; ring.
        -- rewrite rsum_swap. apply rsum_ext. intros i _. rewrite rsum_scal. reflexivity.
      * transitivity (rsum (nr A) (fun k => rsum (nr A) (fun i => ent X a i * (mprod (nc A) A P i k * ent A k b)))).
        -- apply rsum_ext. intros k _. rewrite <- rsum_scal_r. apply rsum_ext. intros; ring.
        -- rewrite rsum_swap. apply rsum_ext. intros i _. rewrite rsum_scal. reflexivity.
  - rewrite (rsum_ext _ _ (fun i => ent X a i * ent A i b)) by (intros i Hi; rewrite P1; auto). apply HX; auto.
Qed.
(** rows of the pseudo-inverse are orthogonal to every z with z A = 0 *)
Lemma penrose_min A P z : penrose A P -> (forall b, (b < nc A)%nat -> rsum (nr A) (fun q => z q * ent A q b) = 0) ->
  forall a, (a < nc A)%nat -> rsum (nr A) (fun q => ent P a q * z q) = 0.
Proof.
  intros (RP & CP & _ & P2 & P3 & _) HZ a Ha.
  (* P a q = sum_k (PA)_{ak} P_{kq} = sum_r P_{ar} (AP)_{rq} = sum_r P_{ar} (AP)_{qr} *)
  assert (E : forall q, (q < nr A)%nat -> ent P a q = rsum (nr A) (fun r => ent P a r * mprod (nc A) A P q r)).
  { intros q Hq. rewrite <- P2 by auto. unfold mprod at 1.
    transitivity (rsum (nc A) (fun k => rsum (nr A) (fun r => ent P a r * (ent A r k * ent P k q)))).
    - apply rsum_ext. intros k _. rewrite <- rsum_scal_r. apply rsum_ext. intros; ring.
    - rewrite rsum_swap. apply rsum_ext. intros r Hr. rewrite rsum_scal. f_equal. rewrite <- P3 by auto. reflexivity. }
  transitivity (rsum (nr A) (fun q => rsum (nr A) (fun r => ent P a r * mprod (nc A) A P q r * z q))).
  { apply rsum_ext. intros q Hq. rewrite E by auto. rewrite <- rsum_scal_r. reflexivity. }
  rewrite rsum_swap. apply rsum_0. intros r Hr.
  transitivity (ent P a r * rsum (nr A) (fun q => rsum (nc A) (fun k => ent P k r * (z q * ent A q k)))).
  { rewrite <- rsum_scal. apply rsum_ext. intros q _. rewrite Rmult_assoc. f_equal. unfold mprod. rewrite <- rsum_scal_r. apply rsum_ext. intros; ring. }
  rewrite rsum_swap. rewrite (rsum_0 (nc A)); [ring|]. intros k Hk. rewrite rsum_scal, HZ by auto. ring.
Qed.
Lemma y00 azi zen : sqrt (4 * PI) * sh_real 0 0 azi zen = 1.
Proof.
  rewrite sh_real_zero_degree. unfold sh_norm, eval_legendre. simpl. pose proof PI_RGT_0 as P.
  replace ((2 * 0 + 1) / (4 * PI) * (1 / 1)) with (/ (4 * PI)) by (field; lra).
  rewrite Rmult_1_r, <- sqrt_mult by (try lra; left; apply Rinv_0_lt_compat; lra). rewrite Rinv_r by lra. apply sqrt_1.
Qed.
Lemma grid_weights_ok pinv cond N azi zen Y : (1 <= N)%nat -> length zen = length azi -> zeniths zen ->
  sh_matrix N azi zen = Ok Y -> penrose Y (pinv Y) -> left_invertible Y ->
  exists w, calculate_grid_weights pinv cond azi zen (Some (Z.of_nat N)) = Ok w /\ exact_for sh_real N azi zen w /\
    forall w', exact_for sh_real N azi zen w' -> lsum (map (fun x => x * x) w) <= lsum (map (fun x => x * x) w').
Proof.
  intros HN L ZZ EY HP HL. destruct (sh_matrix_ok N azi zen L) as (Y' & E' & RY & CY & HY). rewrite EY in E'. injection E' as <-.
  unfold calculate_grid_weights. cbn [bind]. destruct (Z.ltb_spec 0 (Z.of_nat N)); [|lia]. cbn [assert_ bind]. rewrite Nat2Z.id, EY. cbn [bind].
  eexists. split; [reflexivity|]. set (w := map _ _).
  pose proof (penrose_left Y (pinv Y) HP HL) as PL. pose proof HP as (RP & CP & _).
  assert (LW : length w = length azi) by (unfold w; rewrite map_length, seq_length, CP, RY; reflexivity).
  assert (NW : forall q, (q < length azi)%nat -> nth q w 0 = sqrt (4 * PI) * ent (pinv Y) 0 q).
  { intros q Hq. unfold w. rewrite nth_map_seq by (rewrite CP, RY; auto). reflexivity. }
  assert (K0 : (0 < nc Y)%nat) by (rewrite CY, sq2; nia).
  assert (IY : forall b, (b < nc Y)%nat -> rsum (length azi) (fun q => nth q w 0 * ent Y q b) = sqrt (4 * PI) * delta 0 b).
  { intros b Hb. rewrite <- (PL 0%nat b K0 Hb). unfold mprod. rewrite RY, <- rsum_scal. apply rsum_ext. intros q Hq. rewrite NW by auto. ring. }
  pose proof PI_RGT_0 as PP. assert (S4 : sqrt (4 * PI) * sqrt (4 * PI) = 4 * PI) by (apply sqrt_def; lra).
  assert (EX : exact_for sh_real N azi zen w).
  { unfold exact_for. split; auto. split; auto. split; auto. split.
    - rewrite lsum_rsum, LW. transitivity (sqrt (4 * PI) * rsum (length azi) (fun q => nth q w 0 * ent Y q 0)).
      + rewrite <- rsum_scal. apply rsum_ext. intros q Hq. pose proof (HY q 0%nat 0%nat Hq) as H0. simpl in H0. rewrite H0 by lia.
        transitivity (nth q w 0 * (sqrt (4 * PI) * sh_real 0 0 (nth q azi 0) (nth q zen 0))); [rewrite y00; ring|ring].
      + rewrite IY by auto. rewrite delta_same. lra.
    - intros n m Hn Hm. unfold degree in Hm.
      set (k := Z.to_nat (m + Z.of_nat n)). assert (Hk : (k < 2 * n + 1)%nat) by (unfold k; lia).
      assert (Em : m = (Z.of_nat k - Z.of_nat n)%Z) by (unfold k; lia).
      transitivity (rsum (length azi) (fun q => nth q w 0 * ent Y q (n * n + k))).
      + apply rsum_ext. intros q Hq. rewrite HY by (auto; lia). rewrite Em. reflexivity.
      + rewrite IY by (rewrite CY, sq2; nia). rewrite delta_diff by nia. ring. }
  split; auto. intros w' EX'.
  destruct EX' as (_ & LW' & _ & S' & H').
  assert (IY' : forall b, (b < nc Y)%nat -> rsum (length azi) (fun q => nth q w' 0 * ent Y q b) = sqrt (4 * PI) * delta 0 b).
  { intros b Hb. rewrite CY in Hb. destruct (acn_decomp N b Hb) as (n & k & Hn & Hk & ->).
    rewrite (rsum_ext _ _ (fun q => nth q w' 0 * sh_real n (Z.of_nat k - Z.of_nat n) (nth q azi 0) (nth q zen 0))) by (intros q Hq; rewrite HY; auto).
    destruct n as [|n].
    - assert (k = 0%nat) by lia. subst k. simpl. rewrite delta_same.
      apply Rmult_eq_reg_l with (sqrt (4 * PI)). 2:{ intros E. rewrite E in S4. lra. }
      rewrite Rmult_1_r, S4. transitivity (lsum w'); [|exact S']. rewrite lsum_rsum, LW', <- rsum_scal. apply rsum_ext. intros q Hq.
      transitivity (nth q w' 0 * (sqrt (4 * PI) * sh_real 0 0 (nth q azi 0) (nth q zen 0))); [ring|rewrite y00; ring].
    - rewrite H' by (try lia; unfold degree; lia). rewrite delta_diff by lia. ring. }
  set (z := fun q => nth q w' 0 - nth q w 0).
  assert (Z0 : rsum (length azi) (fun q => nth q w 0 * z q) = 0).
  { transitivity (sqrt (4 * PI) * rsum (nr Y) (fun q => ent (pinv Y) 0 q * z q)).
    - rewrite RY, <- rsum_scal. apply rsum_ext. intros q Hq. rewrite NW by auto. ring.
    - rewrite (penrose_min Y (pinv Y) z HP); [ring| |auto]. intros b Hb. rewrite RY.
      rewrite (rsum_ext _ _ (fun q => nth q w' 0 * ent Y q b - nth q w 0 * ent Y q b)) by (intros; unfold z; ring).
      rewrite rsum_minus, IY, IY' by auto. ring. }
  rewrite !lsum_rsum, !map_length, LW, LW'.
  rewrite (rsum_ext _ _ (fun q => nth q w 0 * nth q w 0)) by (intros q Hq; apply (nth_map_in (fun x => x * x)); lia).
  rewrite (rsum_ext (length azi) (fun i => nth i (map (fun x => x * x) w') 0) (fun q => nth q w 0 * nth q w 0 + (2 * (nth q w 0 * z q) + z q * z q))).
  2:{ intros q Hq. rewrite (nth_map_in (fun x => x * x) w' q 0 0) by lia. unfold z. ring. }
  rewrite (rsum_plus (length azi) (fun q => nth q w 0 * nth q w 0) (fun q => 2 * (nth q w 0 * z q) + z q * z q)).
  rewrite (rsum_plus (length azi) (fun q => 2 * (nth q w 0 * z q)) (fun q => z q * z q)), rsum_scal, Z0.
  pose proof (rsum_sq_nonneg (length azi) z). lra.
Qed.
Lemma grid_weights_bad_order pinv cond azi zen o : (o <= 0)%Z -> calculate_grid_weights pinv cond azi zen (Some o) = Err AssertionError.
Proof. intros H. unfold calculate_grid_weights. cbn [bind]. destruct (Z.ltb_spec 0 o); [lia|]. reflexivity. Qed.
Lemma grid_weights_mismatch pinv cond azi zen o : (0 < o)%Z -> length zen <> length azi -> length zen <> 1%nat ->
  calculate_grid_weights pinv cond azi zen (Some o) = Err ValueError.
Proof.
  intros H N1 N2. unfold calculate_grid_weights. cbn [bind]. destruct (Z.ltb_spec 0 o); [|lia]. cbn [assert_ bind].
  unfold sh_matrix, dirs_ok. destruct (Nat.eqb_spec (length zen) (length azi)); [contradiction|]. destruct (Nat.eqb_spec (length zen) 1); [contradiction|]. reflexivity.
Qed.
(** the search: first order whose condition number is too high, minus one *)
Lemma search_spec cond its : forall k, match search_order cond k its with
  | Some o => exists j, (k <= j < k + its)%nat /\ o = (j - 1)%nat /\ 2 * (INR j + 1) < cond j /\ forall i, (k <= i < j)%nat -> cond i <= 2 * (INR i + 1)
  | None => forall i, (k <= i < k + its)%nat -> cond i <= 2 * (INR i + 1) end.
Proof.
  induction its as [|its IH]; intros k; simpl; [intros; lia|].
  destruct (Rltb (2 * (INR k + 1)) (cond k)) eqn:E.
  - apply Rltb_true in E. exists k. split; [lia|]. split; auto. split; auto. intros; lia.
  - apply Rltb_false in E. specialize (IH (S k)). destruct (search_order cond (S k) its).
    + destruct IH as (j & A & B & C & D). exists j. split; [lia|]. split; auto. split; auto. intros i Hi. destruct (Nat.eq_dec i k) as [->|]; auto. apply D. lia.
    + intros i Hi. destruct (Nat.eq_dec i k) as [->|]; auto. apply IH. lia.
Qed.
Lemma grid_weights_search pinv cond azi zen (K : nat -> R) : (forall k, (1 <= k)%nat -> check_cond_sht cond k azi zen = Ok (K k)) ->
  (forall N, (N < 99)%nat -> 2 * (INR (N + 1) + 1) < K (N + 1)%nat -> (forall i, (1 <= i <= N)%nat -> K i <= 2 * (INR i + 1)) ->
     calculate_grid_weights pinv cond azi zen None = calculate_grid_weights pinv cond azi zen (Some (Z.of_nat N))) /\
  ((forall i, (1 <= i <= 99)%nat -> K i <= 2 * (INR i + 1)) -> calculate_grid_weights pinv cond azi zen None = Err TypeError).
Proof.
  intros HK. unfold calculate_grid_weights. rewrite (HK 1%nat) by lia. cbn [bind].
  set (c := fun k => match check_cond_sht cond k azi zen with Ok c => c | Err _ => 0 end).
  assert (EC : forall k, (1 <= k)%nat -> c k = K k) by (intros k Hk; unfold c; rewrite HK; auto).
  pose proof (search_spec c 99 1) as SS. split.
  - intros N HN A B. destruct (search_order c 1 99) as [o|].
    + destruct SS as (j & J1 & -> & J2 & J3). rewrite EC in J2 by lia.
      destruct (lt_eq_lt_dec j (N + 1)) as [[T|T]|T].
      * assert (j <= N)%nat by lia. pose proof (B j). assert (K j <= 2 * (INR j + 1)) by (apply B; lia). lra.
      * subst j. replace (N + 1 - 1)%nat with N by lia. reflexivity.
      * specialize (J3 (N + 1)%nat). rewrite EC in J3 by lia. assert (K (N + 1)%nat <= 2 * (INR (N + 1) + 1)) by (apply J3; lia). lra.
    + specialize (SS (N + 1)%nat). rewrite EC in SS by lia. assert (K (N + 1)%nat <= 2 * (INR (N + 1) + 1)) by (apply SS; lia). lra.
  - intros B. destruct (search_order c 1 99) as [o|]; [|reflexivity].
    destruct SS as (j & J1 & -> & J2 & J3). rewrite EC in J2 by lia. assert (K j <= 2 * (INR j + 1)) by (apply B; lia). lra.
Qed.

(** ** consequences *)
Lemma equal_angle_sht n azi zen w F : equal_angle n = (azi, zen, w) -> nr F = ((n + 1) ^ 2)%nat ->
  exists f F', inverse_sht F azi zen None None = Ok f /\ sht f n azi zen (Some w) None = Ok F' /\ meq F' F.
Proof. intros E H. apply sht_exact; auto. apply exact_mono with (2 * n + 1)%nat; [lia|]. apply (equal_angle_exact n azi zen w E). Qed.
Lemma gauss_final leggauss n azi zen w x g : leggauss (n + 1)%nat = (x, g) -> length x = (n + 1)%nat -> integrates_powers (2 * n + 1) x g ->
  gauss leggauss n = (azi, zen, w) -> length azi = ((n + 1) * (2 * n + 2))%nat /\ exact_for sh_real (2 * n + 1) azi zen w.
Proof.
  intros HG Lx (Lg & Rx & M). apply (gauss_exact leggauss n azi zen w x g); auto; [congruence|].
  intros k Hk. rewrite <- Lx, M by auto. rewrite pow_add. simpl. f_equal. ring.
Qed.
Lemma gauss_sht leggauss n azi zen w x g F : leggauss (n + 1)%nat = (x, g) -> length x = (n + 1)%nat -> integrates_powers (2 * n + 1) x g ->
  gauss leggauss n = (azi, zen, w) -> nr F = ((n + 1) ^ 2)%nat ->
  exists f F', inverse_sht F azi zen None None = Ok f /\ sht f n azi zen (Some w) None = Ok F' /\ meq F' F.
Proof. intros H1 H2 H3 H4 HF. apply sht_exact; auto. apply exact_mono with (2 * n + 1)%nat; [lia|]. apply (gauss_final leggauss n azi zen w x g H1 H2 H3 H4). Qed.
Lemma gauss2_example : integrates_powers 3 [- (1 / sqrt 3); 1 / sqrt 3] [1; 1].
Proof.
  assert (S3 : sqrt 3 * sqrt 3 = 3) by (apply sqrt_def; lra). assert (P3 : 1 <= sqrt 3) by (rewrite <- sqrt_1; apply sqrt_le_1; lra).
  assert (I3 : 0 < 1 / sqrt 3 <= 1). { split; [apply Rdiv_lt_0_compat; lra|]. apply Rmult_le_reg_r with (sqrt 3); [lra|]. unfold Rdiv. rewrite Rmult_assoc, Rinv_l by lra. lra. }
  assert (Q3 : 1 / sqrt 3 * (1 / sqrt 3) = 1 / 3). { replace (1 / 3) with (1 / (sqrt 3 * sqrt 3)) by (rewrite S3; reflexivity). field. lra. }
  set (y := 1 / sqrt 3) in *. clearbody y. split; [reflexivity|]. split.
  - intros x Hx. simpl in Hx. destruct Hx as [<-|[<-|[]]]; lra.
  - intros k Hk. destruct k as [|[|[|[|k]]]]; [| | | |lia]; simpl; try (field); try nra.
Qed.
Lemma octa_penrose : exists Y, sh_matrix 1 octa_azi octa_zen = Ok Y /\ left_invertible Y /\ penrose Y (Mat (nc Y) (nr Y) (fun i j => 4 * PI / 6 * ent Y j i)).
Proof.
  destruct (gram_grid 1 octa_azi octa_zen (equal_weights 6) octa_grid) as (Y & E & R & C & G). exists Y. split; auto.
  change (length octa_azi) with 6%nat in R. rewrite R in *. 
  assert (PL : forall a b, (a < nc Y)%nat -> (b < nc Y)%nat -> rsum 6 (fun q => 4 * PI / 6 * ent Y q a * ent Y q b) = delta a b).
  { intros a b Ha Hb. unfold orthonormal_on in G. rewrite <- G by auto. rewrite R. apply rsum_ext. intros q Hq.
    rewrite nth_equal_weights by auto. replace (INR 6) with 6 by (simpl; ring). ring. }
  set (P := Mat (nc Y) 6 (fun i j => 4 * PI / 6 * ent Y j i)).
  assert (PL' : forall a b, (a < nc Y)%nat -> (b < nc Y)%nat -> mprod 6 P Y a b = delta a b) by (intros; unfold mprod, P; cbn [ent]; apply PL; auto).
  split. { exists P. rewrite R. exact PL'. }
  unfold penrose. rewrite R. split; [reflexivity|]. split; [reflexivity|]. split; [|split; [|split]].
  - intros i j Hi Hj. transitivity (rsum (nc Y) (fun l => ent Y i l * mprod 6 P Y l j)).
    + unfold mprod. transitivity (rsum 6 (fun k => rsum (nc Y) (fun l => ent Y i l * (ent P l k * ent Y k j)))).
      * apply rsum_ext. intros k _. rewrite <- rsum_scal_r. apply rsum_ext. intros; ring.
      * rewrite rsum_swap. apply rsum_ext. intros l _. rewrite rsum_scal. reflexivity.
    + rewrite (rsum_ext _ _ (fun l => ent Y i l * delta l j)) by (intros l Hl; rewrite PL'; auto). exact (rsum_delta_r (nc Y) j (fun l => ent Y i l) Hj).
  - intros i j Hi Hj. rewrite (rsum_ext _ _ (fun k => delta i k * ent P k j)) by (intros k Hk; rewrite PL'; auto). exact (rsum_delta_l (nc Y) i (fun k => ent P k j) Hi).
  - intros i j Hi Hj. unfold mprod, P. cbn [ent]. apply rsum_ext. intros; ring.
  - intros i j Hi Hj. rewrite !PL' by auto. apply delta_sym.
Qed.
