(** ALLRAD of an encoded source; ALLRAP2, its energy, and ALLRAD2. *)
From Verif Require Import Base BaseFacts M_utils M_sph0 M_sig M_process M_sph M_grids M_decoder M_decoder2
  S_utils S_sph S_decoder S_decoder2 P_utils P_sig P_sph7 P_sph9 P_sph10 P_sph11 P_sph12 P_sph13 P_dec1 P_dec2 P_dec3 P_dec6 P_dec7.
Open Scope R_scope.

(** a second call finds the cache of the first and returns the same *)
Lemma vbap_again lstsq3 src h o rows h' : vbap_hull lstsq3 1 [] src h o None = (Ok rows, h') ->
  vbap_hull lstsq3 1 [] src h' o None = (Ok rows, h') /\ h_imag h' = h_imag h /\ h_points h' = h_points h.
Proof.
  intro V. pose proof V as V0. unfold vbap_hull in V. destruct (h_vbase h) as [b|] eqn:B.
  - injection V as _ <-. auto.
  - destruct (invert_triplets lstsq3 (h_valid h) (h_points h)) as [b|e] eqn:I; cbn [bind] in V; [|discriminate].
    pose proof (f_equal fst V) as V1. pose proof (f_equal snd V) as V2. cbn [fst snd] in V1, V2. rewrite <- V2. split; [|split; reflexivity].
    unfold vbap_hull. cbn [set_vbase h_vbase h_points h_valid h_d h_a]. rewrite <- V1. reflexivity.
Qed.

Lemma src_to_sh_ok sig (src : list V3) azi zen N : angles_of src azi zen -> nr sig = length src ->
  exists F, src_to_sh sig azi zen N = Ok F /\ nr F = ((N + 1) ^ 2)%nat /\ nc F = nc sig /\
  forall n i t, (n <= N)%nat -> (i < 2 * n + 1)%nat -> ent F (n * n + i) t
    = rsum (length src) (fun q => sh_real n (Z.of_nat i - Z.of_nat n) (nth q azi 0) (nth q zen 0) * ent sig q t).
Proof.
  intros [L1 [L2 _]] R. destruct (sh_matrix_ok N azi zen ltac:(congruence)) as (Y & E & RY & CY & NY).
  unfold src_to_sh. rewrite E. cbn [bind]. rewrite matmul_ok by (cbn [mtr nc]; congruence).
  eexists. split; [reflexivity|]. cbn [nr nc mtr ent]. split; [exact CY|]. split; [reflexivity|]. intros n i t Hn Hi. rewrite RY, L1.
  apply rsum_ext. intros q Hq. rewrite NY by lia. reflexivity.
Qed.

Section Allra.
Variables (lstsq3 : M3 -> M3) (s : setup) (h : hull) (kp : list V3) (Nk : nat) (N : nat).
Hypothesis (SA : s_ambi s = Some h) (SK : s_kernel s = Some (kp, Nk)) (KN : forall p, In p kp -> p <> (0, 0, 0)).
Let keep := keep_of (h_imag h) (length (h_points h)).

Lemma allrad_encoded jobs sched jobs' sched' rows (src : list V3) azi zen sig N_sph :
  fst (vbap_hull lstsq3 1 [] kp h (POrd 2) None) = Ok rows -> order_or N_sph s = Some N ->
  (1 <= jobs)%Z -> fair (length kp) sched -> (1 <= jobs')%Z -> fair (length kp) sched' ->
  angles_of src azi zen -> nr sig = length src ->
  exists F G LS s1 s2 s3, src_to_sh sig azi zen N = Ok F /\ allrap lstsq3 jobs sched src s N_sph = (Ok (Some G), s1) /\
    allrad lstsq3 jobs' sched' F s N_sph = (Ok (Some LS), s2) /\ allrad lstsq3 jobs' sched' F s1 N_sph = (Ok (Some LS), s3) /\
    product (mtr G) sig LS.
Proof.
  intros V O J FA J' FA' AN RS. destruct (vbap_hull lstsq3 1 [] kp h (POrd 2) None) as [r h'] eqn:VB. cbn [fst] in V. subst r.
  assert (NS : forall p, In p src -> p <> (0, 0, 0)).
  { intros p Ip. apply (@In_nth V3) with (d := (0, 0, 0)) in Ip. destruct Ip as [i [Hi E]]. rewrite <- E.
    destruct AN as [_ [_ AN]]. destruct (AN i Hi) as [_ A]. apply (aims_unit _ _ (unit_dir _ _) A). }
  assert (V1 : vbap_hull lstsq3 jobs sched kp h (POrd 2) None = (Ok rows, h')) by (rewrite vbap_hull_counts by assumption; exact VB).
  assert (V2 : vbap_hull lstsq3 jobs' sched' kp h (POrd 2) None = (Ok rows, h')) by (rewrite vbap_hull_counts by assumption; exact VB).
  destruct (vbap_again _ _ _ _ _ _ VB) as [VA [IM PT]].
  assert (V3' : vbap_hull lstsq3 jobs' sched' kp h' (POrd 2) None = (Ok rows, h')) by (rewrite vbap_hull_counts by assumption; exact VA).
  destruct (src_to_sh_ok sig src azi zen N AN RS) as (F & EF & RF & CF & NF).
  destruct (allrap_ok lstsq3 s h kp Nk N SA SK KN jobs sched rows h' src N_sph V1 O NS) as (G & a & EG & UG & RG & CG & NG).
  destruct (allrad_ok lstsq3 s h kp Nk N SA SK KN jobs' sched' rows h' F N_sph V2 O RF) as (LS & a2 & azk & zek & EL & UG2 & AK & RL & CL & NL).
  rewrite UG in UG2. injection UG2 as <-.
  assert (EL3 : exists s3, allrad lstsq3 jobs' sched' F (set_ambi s h') N_sph = (Ok (Some LS), s3)).
  { assert (OO : order_or N_sph (set_ambi s h') = order_or N_sph s) by (destruct N_sph; reflexivity).
    revert EL. unfold allrad, ambi_kernel, kernel_gains. rewrite OO. change (s_ambi (set_ambi s h')) with (Some h'). change (s_kernel (set_ambi s h')) with (s_kernel s).
    rewrite SA, SK. cbn [bind]. destruct (same_order (order_or N_sph s) F); cbn [bind]; [|intro; discriminate]. rewrite V2, V3', IM, PT. cbn [bind]. intro EL.
    eexists. apply f_equal2; [exact (f_equal fst EL)|reflexivity]. }
  destruct EL3 as [s3 EL3]. fold keep in RG, CG, NG, RL, CL, NL.
  exists F, G, LS, (set_ambi s h'), (set_ambi s h'), s3. repeat (split; [assumption|]).
  unfold product. cbn [mtr nr nc ent]. split; [congruence|]. split; [congruence|]. split; [congruence|].
  rewrite CG, RG. intros l t Hl Ht. rewrite NL by (try assumption; rewrite CF; assumption).
  destruct (maxre_weights_ok N) as (a' & UG' & LA & _). rewrite UG in UG'. injection UG' as <-.
  transitivity (rsum (length src) (fun q => rsum (length kp) (fun k =>
      4 * PI / INR (length kp) * (pattern a (cos_angle (nth q src (0, 0, 0)) (nth k kp (0, 0, 0))) * nth (nth l keep 0%nat) (nth k rows []) 0) * ent sig q t))).
  2:{ apply rsum_ext. intros q Hq. rewrite NG by assumption. rewrite <- rsum_scal. rewrite <- rsum_scal_r. apply rsum_ext. intros. ring. }
  rewrite rsum_swap. rewrite <- rsum_scal. apply rsum_ext. intros k Hk.
  transitivity (4 * PI / INR (length kp) * (nth (nth l keep 0%nat) (nth k rows []) 0 *
     rsum (length src) (fun q => pattern a (cos_angle (nth q src (0, 0, 0)) (nth k kp (0, 0, 0))) * ent sig q t))).
  2:{ rewrite <- !rsum_scal. apply rsum_ext. intros. ring. }
  f_equal. f_equal.
  transitivity (rsum (N + 1) (fun n => rsum (2 * n + 1) (fun i => rsum (length src) (fun q =>
     sh_real n (Z.of_nat i - Z.of_nat n) (nth k azk 0) (nth k zek 0) * nth n a 0 * (sh_real n (Z.of_nat i - Z.of_nat n) (nth q azi 0) (nth q zen 0) * ent sig q t))))).
  { apply rsum_ext. intros n Hn. apply rsum_ext. intros i Hi. rewrite NF by lia. rewrite rsum_scal. reflexivity. }
  rewrite (rsum_ext (length src) _ (fun q => rsum (N + 1) (fun n => rsum (2 * n + 1) (fun i =>
      sh_real n (Z.of_nat i - Z.of_nat n) (nth k azk 0) (nth k zek 0) * nth n a 0 * (sh_real n (Z.of_nat i - Z.of_nat n) (nth q azi 0) (nth q zen 0) * ent sig q t))))).
  2:{ intros q Hq. destruct AN as [_ [_ AN]]. destruct (AN q Hq) as [Zq Aq]. destruct AK as [_ [_ AK]]. destruct (AK k Hk) as [Zk Ak].
      rewrite (pattern_harmonics N a _ _ _ _ _ _ LA Zq Zk Aq Ak). rewrite <- rsum_scal_r. apply rsum_ext. intros n Hn.
      rewrite <- rsum_scal_r. apply rsum_ext. intros i Hi. ring. }
  rewrite rsum_swap. apply rsum_ext. intros n Hn. rewrite rsum_swap. reflexivity.
Qed.

(** ** ALLRAP2 *)
Lemma allrap2_weights_ok a : length a = (N + 1)%nat -> 0 < nth 0 a 0 ->
  let w := rsum (N + 1) (fun n => 2 * (INR n + 1) / (4 * PI) * (nth n a 0 * nth n a 0)) in
  0 < w /\ allrap2_weights N a = Some (map (fun x => x / sqrt w) a).
Proof.
  intros LA A0 w. assert (W : 0 < w).
  { unfold w. pose proof PI_RGT_0.
    assert (T : forall n, 0 < 2 * (INR n + 1) / (4 * PI)) by (intro n; pose proof (pos_INR n); apply Rdiv_lt_0_compat; lra).
    apply Rlt_le_trans with (2 * (INR 0 + 1) / (4 * PI) * (nth 0 a 0 * nth 0 a 0)).
    - apply Rmult_lt_0_compat; [apply T|]. apply Rmult_lt_0_compat; assumption.
    - apply (rsum_ge_term (N + 1) (fun n => 2 * (INR n + 1) / (4 * PI) * (nth n a 0 * nth n a 0)) 0); [|lia].
      intros i _. apply Rmult_le_pos; [pose proof (T i); lra|apply Rle_0_sqr]. }
  split; [exact W|]. unfold allrap2_weights. fold w. rewrite (proj2 (Reqb_false (sqrt w) 0)); [reflexivity|].
  pose proof (sqrt_lt_R0 w W). lra.
Qed.
Lemma allrap2_ok jobs sched rows h' (src : list V3) N_sph : vbap_hull lstsq3 jobs sched kp h (POrd 2) None = (Ok rows, h') ->
  order_or N_sph s = Some N -> (forall p, In p src -> p <> (0, 0, 0)) ->
  exists G a b, allrap2 lstsq3 jobs sched src s N_sph = (Ok (Some G), set_ambi s h') /\
    unity_gain (max_rE_weights N) = Some a /\ allrap2_weights N a = Some b /\
    nr G = length src /\ nc G = length keep /\
    forall i l, (i < length src)%nat -> (l < length keep)%nat -> ent G i l
      = sqrt (4 * PI / INR (length kp) * rsum (length kp) (fun k =>
          pattern b (cos_angle (nth i src (0, 0, 0)) (nth k kp (0, 0, 0))) ^ 2 * nth (nth l keep 0%nat) (nth k rows []) 0 ^ 2)).
Proof.
  intros V O NS. destruct (maxre_weights_ok N) as (a & UG & LA & _ & _ & A0).
  destruct (allrap2_weights_ok a LA A0) as [W EW]. set (w := rsum _ _) in *. set (b := map _ a) in *.
  assert (LB : length b = (N + 1)%nat) by (unfold b; rewrite map_length; exact LA).
  assert (NU : forall p, In p (map unit3 src) -> p <> (0, 0, 0)).
  { intros p Ip. apply in_map_iff in Ip. destruct Ip as [q [<- Iq]]. apply unit3_nonzero. apply NS. exact Iq. }
  destruct (panning_pattern N b (map unit3 src) kp LB NU KN) as (G & EG & RG & CG & EN). rewrite map_length in *.
  unfold allrap2, ambi_kernel, kernel_gains. rewrite SA, SK, V. cbn [bind]. rewrite O, UG. cbn [orsome]. rewrite EW. cbn [orsome].
  rewrite unit_rows_ok by exact NS. cbn [orsome]. rewrite EG. cbn [bind orsome].
  set (Gk := mat_of_rows (length kp) (length (h_points h)) rows).
  destruct (del_cols_ent (h_imag h) Gk) as (DR & DC & DE). change (nr Gk) with (length kp) in DR.
  change (nc Gk) with (length (h_points h)) in DC, DE. fold keep in DC, DE.
  rewrite matmul_ok by (cbn [mscal mmap nc nr]; congruence). cbn [bind].
  eexists. exists a, b. split; [reflexivity|]. split; [reflexivity|]. split; [exact EW|]. cbn [nr nc mmap mscal ent]. split; [exact RG|]. split; [exact DC|].
  intros i l Hi Hl. f_equal. rewrite CG. rewrite <- rsum_scal. apply rsum_ext. intros k Hk. rewrite EN, DE by assumption.
  rewrite (nth_map_in unit3 src i (0, 0, 0) (0, 0, 0) Hi).
  rewrite cos_angle_unit by (try (apply NS, nth_In; exact Hi); apply KN, nth_In; exact Hk). cbn [Gk mat_of_rows ent]. ring.
Qed.

Lemma allrad2_ok jobs sched rows h' F N_sph : vbap_hull lstsq3 jobs sched kp h (POrd 2) None = (Ok rows, h') ->
  order_or N_sph s = Some N -> nr F = ((N + 1) ^ 2)%nat ->
  exists LS G azk zek s1, allrap2 lstsq3 jobs sched kp s (Some N) = (Ok (Some G), s1) /\
    allrad2 lstsq3 jobs sched F s N_sph = (Ok (Some LS), s1) /\ angles_of kp azk zek /\ nr LS = nc G /\ nc LS = nc F /\
    forall l t, (l < nc G)%nat -> (t < nc F)%nat -> ent LS l t
      = 4 * PI / INR (length kp) * rsum (length kp) (fun k => ent G k l *
           field_value sh_real N (map (fun c => ent F c t) (seq 0 ((N + 1) ^ 2))) (nth k azk 0) (nth k zek 0)).
Proof.
  intros V O RF. destruct (allrap2_ok jobs sched rows h' kp (Some N) V eq_refl KN) as (G & a & b & EG & _ & _ & RG & CG & _).
  destruct (dirs_ok_angles kp KN) as (azk & zek & DK & AK). assert (AK' := AK). destruct AK' as [L3 [L4 _]].
  destruct (sh_matrix_ok N azk zek ltac:(congruence)) as (Yk & EK & RK & CK & NK).
  unfold allrad2, ambi_kernel, same_order. rewrite SA, SK, O. cbn [bind]. rewrite RF, order_of_sq, Z.eqb_refl. cbn [bind].
  rewrite EG. cbn [bind orsome]. rewrite DK. cbn [orsome fst snd]. rewrite EK. cbn [bind].
  rewrite matmul_ok by (cbn [mscal mtr nc nr]; congruence). cbn [bind].
  rewrite matmul_ok by (cbn [nc nr]; congruence). cbn [bind].
  eexists. exists G, azk, zek, (set_ambi s h'). split; [reflexivity|]. split; [reflexivity|]. split; [exact AK|].
  cbn [nr nc mscal mtr ent]. split; [reflexivity|]. split; [reflexivity|]. intros l t Hl Ht. rewrite CK, RG.
  transitivity (rsum (length kp) (fun k => 4 * PI / INR (length kp) * (ent G k l * rsum ((N + 1) ^ 2) (fun c => ent Yk k c * ent F c t)))).
  - rewrite (rsum_ext _ _ (fun c => rsum (length kp) (fun k => 4 * PI / INR (length kp) * (ent G k l * (ent Yk k c * ent F c t))))).
    + rewrite rsum_swap. apply rsum_ext. intros k Hk. rewrite !rsum_scal. reflexivity.
    + intros c Hc. rewrite <- rsum_scal_r. apply rsum_ext. intros. ring.
  - rewrite rsum_scal. f_equal. apply rsum_ext. intros k Hk. f_equal. unfold field_value.
    rewrite sq2, rsum_acn. apply rsum_ext. intros n Hn. apply rsum_ext. intros i Hi.
    rewrite NK by lia. rewrite nth_map_seq by nia. ring.
Qed.

(** ** energy *)
Lemma pattern_energy b u azk zek : length b = (N + 1)%nat -> u <> (0, 0, 0) -> angles_of kp azk zek ->
  exact_for sh_real (2 * N) azk zek (equal_weights (length kp)) -> (0 < length kp)%nat ->
  4 * PI / INR (length kp) * rsum (length kp) (fun k => pattern b (cos_angle u (nth k kp (0, 0, 0))) ^ 2)
  = rsum (N + 1) (fun n => (2 * INR n + 1) / (4 * PI) * (nth n b 0 * nth n b 0)).
Proof.
  intros LB NU AK EX JP. destruct (cart2sph_dir u NU) as (au & zu & _ & Zu & SU).
  assert (AU : aims u (sph2cart au zu 1)) by (exists (norm3 u); split; [apply norm3_pos; exact NU|symmetry; exact SU]).
  destruct (gram_grid N azk zek _ EX) as (Yk & EK & RK & CK & ORT).
  destruct AK as [L3 [L4 AK]]. destruct (sh_matrix_ok N azk zek ltac:(congruence)) as (Y2 & E2 & _ & _ & NK). rewrite EK in E2. injection E2 as <-.
  set (f := fun c => nth c (map (fun nm : nat * Z => sh_real (fst nm) (snd nm) au zu) (acn_list N)) 0 * nth c (repeat_per_order b) 0).
  assert (FF : forall n i, (n <= N)%nat -> (i < 2 * n + 1)%nat -> f (n * n + i)%nat = sh_real n (Z.of_nat i - Z.of_nat n) au zu * nth n b 0).
  { intros n i Hn Hi. unfold f. rewrite rpo_nth by lia.
    rewrite (nth_map_in _ (acn_list N) (n * n + i) 0 (0%nat, 0%Z)) by (rewrite acn_length, sq2; nia).
    rewrite acn_nth by assumption. reflexivity. }
  assert (PT : forall k, (k < length kp)%nat -> pattern b (cos_angle u (nth k kp (0, 0, 0))) = rsum ((N + 1) ^ 2) (fun c => f c * ent Yk k c)).
  { intros k Hk. destruct (AK k Hk) as [Zk Ak]. rewrite (pattern_harmonics N b _ _ _ _ _ _ LB Zu Zk AU Ak).
    rewrite sq2, rsum_acn. apply rsum_ext. intros n Hn. apply rsum_ext. intros i Hi. rewrite FF, NK by lia. reflexivity. }
  transitivity (rsum ((N + 1) ^ 2) (fun c => f c * f c)).
  - rewrite <- rsum_scal.
    rewrite (rsum_ext (length kp) _ (fun k => rsum ((N + 1) ^ 2) (fun c => rsum ((N + 1) ^ 2) (fun d =>
        f c * f d * (nth k (equal_weights (length kp)) 0 * (ent Yk k c * ent Yk k d)))))).
    2:{ intros k Hk. rewrite PT by exact Hk. rewrite nth_equal_weights by exact Hk. rewrite <- Rsqr_pow2. unfold Rsqr. rewrite rsum_mult.
        rewrite <- rsum_scal. apply rsum_ext. intros c Hc. rewrite <- rsum_scal. apply rsum_ext. intros d Hd. ring. }
    rewrite rsum_swap. apply rsum_ext. intros c Hc. rewrite rsum_swap.
    rewrite (rsum_ext _ _ (fun d => f c * (f d * delta c d))).
    + rewrite rsum_scal. f_equal. transitivity (rsum ((N + 1) ^ 2) (fun d => delta c d * f d)); [apply rsum_ext; intros; ring|].
      apply rsum_delta_l. exact Hc.
    + intros d Hd. rewrite rsum_scal. specialize (ORT c d). rewrite CK, RK, L3 in ORT. rewrite ORT by assumption. ring.
  - rewrite sq2, rsum_acn. apply rsum_ext. intros n Hn.
    transitivity (nth n b 0 * nth n b 0 * rsum (2 * n + 1) (fun i => sh_real n (Z.of_nat i - Z.of_nat n) au zu * sh_real n (Z.of_nat i - Z.of_nat n) au zu)).
    { rewrite <- rsum_scal. apply rsum_ext. intros i Hi. rewrite FF by lia. ring. }
    rewrite (Rmult_comm (nth n b 0 * nth n b 0)). f_equal.
    (* Unsoeld: the pattern of the n-th order alone at angle 0 *)
    pose proof (pattern_harmonics n (repeat 0 n ++ [1]) u u au zu au zu ltac:(rewrite app_length, repeat_length; reflexivity) Zu Zu AU AU) as U.
    assert (C1 : cos_angle u u = 1).
    { unfold cos_angle. rewrite norm3_sq. field. pose proof (dot3_self_pos u NU). lra. }
    rewrite C1 in U. unfold pattern in U. rewrite app_length, repeat_length in U. cbn [length] in U.
    replace (n + 1)%nat with (S n) in U by lia. cbn [rsum] in U.
    assert (NN : nth n (repeat 0 n ++ [1]) 0 = 1).
    { rewrite app_nth2; rewrite repeat_length; [|lia]. rewrite Nat.sub_diag. reflexivity. }
    rewrite NN, legendre_one in U.
    rewrite (rsum_0 n (fun n0 => nth n0 (repeat 0 n ++ [1]) 0 * _ * _)) in U.
    2:{ intros i Hi. rewrite app_nth1 by (rewrite repeat_length; exact Hi). rewrite nth_repeat_in by exact Hi. ring. }
    rewrite (rsum_0 n (fun n0 => rsum (2 * n0 + 1) _)) in U.
    2:{ intros i Hi. apply rsum_0. intros j Hj. rewrite app_nth1 by (rewrite repeat_length; exact Hi). rewrite nth_repeat_in by exact Hi. ring. }
    symmetry. transitivity (0 + 1 * ((2 * INR n + 1) / (4 * PI)) * 1); [ring|]. rewrite U. rewrite Rplus_0_l. apply rsum_ext. intros. ring.
Qed.
Lemma allrap2_energy jobs sched rows h' (src : list V3) N_sph azk zek i : vbap_hull lstsq3 jobs sched kp h (POrd 2) None = (Ok rows, h') ->
  order_or N_sph s = Some N -> (forall p, In p src -> p <> (0, 0, 0)) -> angles_of kp azk zek ->
  exact_for sh_real (2 * N) azk zek (equal_weights (length kp)) -> (0 < length kp)%nat ->
  (forall k, (k < length kp)%nat -> rsum (length keep) (fun l => nth (nth l keep 0%nat) (nth k rows []) 0 ^ 2) = 1) -> (i < length src)%nat ->
  exists G, allrap2 lstsq3 jobs sched src s N_sph = (Ok (Some G), set_ambi s h') /\ nr G = length src /\ nc G = length keep /\
    rsum (nc G) (fun l => ent G i l ^ 2)
    = rsum (N + 1) (fun n => (2 * INR n + 1) * max_rE N n ^ 2) / rsum (N + 1) (fun n => (2 * INR n + 2) * max_rE N n ^ 2).
Proof.
  intros V O NS AK EX JP UR Hi. destruct (allrap2_ok jobs sched rows h' src N_sph V O NS) as (G & a & b & EG & UG & EB & RG & CG & NG).
  exists G. split; [exact EG|]. split; [exact RG|]. split; [exact CG|]. rewrite CG.
  destruct (maxre_weights_ok N) as (a' & UG' & LA & _ & AR & A0). rewrite UG in UG'. injection UG' as <-.
  destruct (allrap2_weights_ok a LA A0) as [W EW]. set (w := rsum (N + 1) (fun n => 2 * (INR n + 1) / (4 * PI) * (nth n a 0 * nth n a 0))) in *.
  rewrite EB in EW. injection EW as EW. assert (LB : length b = (N + 1)%nat) by (rewrite EW, map_length; exact LA).
  pose proof PI_RGT_0 as PP. assert (JR : 0 < INR (length kp)) by (apply lt_0_INR; exact JP).
  assert (CJ : 0 <= 4 * PI / INR (length kp)) by (apply Rlt_le, Rdiv_lt_0_compat; lra).
  set (u := nth i src (0, 0, 0)) in *.
  transitivity (4 * PI / INR (length kp) * rsum (length kp) (fun k => pattern b (cos_angle u (nth k kp (0, 0, 0))) ^ 2)).
  { rewrite (rsum_ext _ _ (fun l => rsum (length kp) (fun k => 4 * PI / INR (length kp) * (pattern b (cos_angle u (nth k kp (0, 0, 0))) ^ 2 * nth (nth l keep 0%nat) (nth k rows []) 0 ^ 2)))).
    - rewrite rsum_swap, <- rsum_scal. apply rsum_ext. intros k Hk. rewrite rsum_scal. f_equal. rewrite rsum_scal.
      fold keep in UR. rewrite UR by exact Hk. ring.
    - intros l Hl. rewrite NG by assumption. fold u. rewrite pow2_sqrt; [rewrite rsum_scal; reflexivity|].
      apply Rmult_le_pos; [exact CJ|]. apply rsum_nonneg. intros k _. apply Rmult_le_pos; apply pow2_ge_0. }
  rewrite (pattern_energy b u azk zek LB (NS _ (nth_In src (0, 0, 0) Hi)) AK EX JP).
  assert (BN : forall n, (n < N + 1)%nat -> nth n b 0 * nth n b 0 = nth 0 a 0 * nth 0 a 0 / w * max_rE N n ^ 2).
  { intros n Hn. rewrite EW. rewrite (nth_map_in (fun x => x / sqrt w) a n 0 0) by lia. rewrite AR by lia.
    pose proof (sqrt_lt_R0 w W) as SW. pose proof (sqrt_sqrt w ltac:(lra)) as SS.
    replace (nth 0 a 0 * max_rE N n / sqrt w * (nth 0 a 0 * max_rE N n / sqrt w)) with (nth 0 a 0 * max_rE N n * (nth 0 a 0 * max_rE N n) / (sqrt w * sqrt w)) by (field; lra).
    rewrite SS. field. lra. }
  assert (EWW : w = nth 0 a 0 * nth 0 a 0 / (4 * PI) * rsum (N + 1) (fun n => (2 * INR n + 2) * max_rE N n ^ 2)).
  { unfold w. rewrite <- rsum_scal. apply rsum_ext. intros n Hn. rewrite AR by lia. field. lra. }
  set (D := rsum (N + 1) (fun n => (2 * INR n + 2) * max_rE N n ^ 2)) in *.
  assert (DN : D <> 0) by (intro Z; rewrite Z in EWW; lra).
  rewrite (rsum_ext (N + 1) (fun n => (2 * INR n + 1) / (4 * PI) * (nth n b 0 * nth n b 0)) (fun n => nth 0 a 0 * nth 0 a 0 / w / (4 * PI) * ((2 * INR n + 1) * max_rE N n ^ 2))).
  2:{ intros n Hn. rewrite BN by exact Hn. field. split; lra. }
  rewrite rsum_scal. set (Q := rsum (N + 1) (fun n => (2 * INR n + 1) * max_rE N n ^ 2)). rewrite EWW. field. repeat split; lra.
Qed.
End Allra.
Lemma allrap2_ratio N : rsum (N + 1) (fun n => (2 * INR n + 1) * max_rE N n ^ 2) / rsum (N + 1) (fun n => (2 * INR n + 2) * max_rE N n ^ 2) < 1.
Proof.
  assert (E0 : max_rE N 0 = 1) by reflexivity.
  assert (P : 0 < rsum (N + 1) (fun n => max_rE N n ^ 2)).
  { apply Rlt_le_trans with (max_rE N 0 ^ 2); [rewrite E0; lra|]. apply (rsum_ge_term (N + 1) (fun n => max_rE N n ^ 2) 0); [|lia]. intros. apply pow2_ge_0. }
  assert (E : rsum (N + 1) (fun n => (2 * INR n + 2) * max_rE N n ^ 2) = rsum (N + 1) (fun n => (2 * INR n + 1) * max_rE N n ^ 2) + rsum (N + 1) (fun n => max_rE N n ^ 2)).
  { rewrite <- rsum_plus. apply rsum_ext. intros. ring. }
  assert (Q : 0 <= rsum (N + 1) (fun n => (2 * INR n + 1) * max_rE N n ^ 2)).
  { apply rsum_nonneg. intros n _. pose proof (pos_INR n). apply Rmult_le_pos; [lra|apply pow2_ge_0]. }
  rewrite E. set (A := rsum (N + 1) (fun n => (2 * INR n + 1) * max_rE N n ^ 2)) in *. set (B := rsum (N + 1) (fun n => max_rE N n ^ 2)) in *.
  apply Rmult_lt_reg_r with (A + B); [lra|]. replace (A / (A + B) * (A + B)) with A by (field; lra). lra.
Qed.
