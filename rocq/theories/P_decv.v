(** Values and errors of the Ambisonic decoders on all layouts. *)
From Verif Require Import Base BaseFacts M_utils M_sph0 M_sig M_process M_sph M_grids M_decoder M_decoder2
  S_utils S_sph S_grids S_decoder S_decoder2 S_lsq P_lsq P_sph7 P_grids3 P_dec1 P_dec6 P_dec7 P_dec8 P_dec9 X_dec2.
Open Scope R_scope.

(** ** ALLRAP2 and ALLRAD *)
Theorem f_allrap2 : forall lstsq3 jobs sched (src : list V3) s N_sph h kp N reals,
  lstsq3_contract lstsq3 -> ambi_ready s h kp -> fresh_hull h ->
  order_in_force N_sph s N -> (1 <= jobs)%Z -> fair (length kp) sched -> (forall p, In p src -> p <> (0, 0, 0)) ->
  real_ls (h_imag h) (length (h_points h)) reals ->
  exists G s' b rows, allrap2 lstsq3 jobs sched src s N_sph = (Ok (Some G), s') /\
    length b = (N + 1)%nat /\ rsum (N + 1) (fun n => (2 * INR n + 2) / (4 * PI) * nth n b 0 ^ 2) = 1 /\
    (exists c, 0 < c /\ forall n, (n <= N)%nat -> nth n b 0 = c * max_rE N n) /\
    Forall2 (panning_row (POrd 2) h (h_valid h)) kp rows /\ nr G = length src /\ nc G = length reals /\
    forall i l, (i < length src)%nat -> (l < length reals)%nat -> ent G i l
      = sqrt (4 * PI / INR (length kp) * rsum (length kp) (fun k => pattern b (cos_angle (nth i src (0, 0, 0)) (nth k kp (0, 0, 0))) ^ 2 * nth (nth l reals 0%nat) (nth k rows []) 0 ^ 2)).
Proof.
  intros lstsq3 jobs sched src s N_sph h kp N reals LC (SA & [Nk SK] & KN) FH OF J FA NS RL.
  destruct (kernel_panned lstsq3 h kp jobs sched LC FH J FA) as (rows & h' & V & F2).
  rewrite (real_is _ _ _ RL). destruct (allrap2_ok lstsq3 s h kp Nk N SA SK KN jobs sched rows h' src N_sph V (order_force _ _ _ OF) NS) as (G & a & b & E & UG & AB & RG & CG & NG).
  destruct (maxre_weights_ok N) as (a' & UG' & LA & UR & MR & P0). rewrite UG in UG'. injection UG' as <-.
  destruct (allrap2_weights_ok N a LA P0) as [W WB]. rewrite WB in AB. injection AB as <-. set (w := rsum (N + 1) (fun n => 2 * (INR n + 1) / (4 * PI) * (nth n a 0 * nth n a 0))) in *.
  pose proof (sqrt_lt_R0 _ W) as SW. assert (NB : forall n, (n <= N)%nat -> nth n (map (fun x => x / sqrt w) a) 0 = nth n a 0 / sqrt w).
  { intros n Hn. apply (nth_map_in (fun x => x / sqrt w) a n 0 0). lia. }
  exists G, (set_ambi s h'), (map (fun x => x / sqrt w) a), rows. split; [exact E|]. split; [rewrite map_length; exact LA|]. split; [|split; [|auto]].
  - rewrite (rsum_ext _ _ (fun n => / w * (2 * (INR n + 1) / (4 * PI) * (nth n a 0 * nth n a 0)))).
    + rewrite rsum_scal. fold w. field. lra.
    + intros n Hn. rewrite NB by lia. replace (/ w) with (/ (sqrt w * sqrt w)) by (rewrite sqrt_sqrt by lra; reflexivity). pose proof PI_RGT_0. field. split; lra.
  - exists (nth 0 a 0 / sqrt w). split; [apply Rdiv_lt_0_compat; assumption|]. intros n Hn. rewrite NB by exact Hn. rewrite MR by exact Hn. unfold Rdiv. ring.
Qed.
Theorem f_allrad : forall lstsq3 jobs sched F s N_sph h kp N reals,
  lstsq3_contract lstsq3 -> ambi_ready s h kp -> fresh_hull h ->
  order_in_force N_sph s N -> (1 <= jobs)%Z -> fair (length kp) sched -> nr F = ((N + 1) ^ 2)%nat ->
  real_ls (h_imag h) (length (h_points h)) reals ->
  exists LS s' a rows azk zek, allrad lstsq3 jobs sched F s N_sph = (Ok (Some LS), s') /\
    length a = (N + 1)%nat /\ unit_response a /\ (exists c, 0 < c /\ forall n, (n <= N)%nat -> nth n a 0 = c * max_rE N n) /\
    Forall2 (panning_row (POrd 2) h (h_valid h)) kp rows /\ angles_of kp azk zek /\ nr LS = length reals /\ nc LS = nc F /\
    forall l t, (l < length reals)%nat -> (t < nc F)%nat -> ent LS l t
      = 4 * PI / INR (length kp) * rsum (length kp) (fun k => nth (nth l reals 0%nat) (nth k rows []) 0 *
           rsum (N + 1) (fun n => nth n a 0 * rsum (2 * n + 1) (fun i => ent F (n * n + i) t * sh_real n (Z.of_nat i - Z.of_nat n) (nth k azk 0) (nth k zek 0)))).
Proof.
  intros lstsq3 jobs sched F s N_sph h kp N reals LC (SA & [Nk SK] & KN) FH OF J FA RF RL.
  destruct (kernel_panned lstsq3 h kp jobs sched LC FH J FA) as (rows & h' & V & F2).
  rewrite (real_is _ _ _ RL). destruct (allrad_ok lstsq3 s h kp Nk N SA SK KN jobs sched rows h' F N_sph V (order_force _ _ _ OF) RF) as (LS & a & azk & zek & E & UG & AK & RG & CG & NG).
  destruct (maxre_weights_ok N) as (a' & UG' & LA & UR & MR & P0). rewrite UG in UG'. injection UG' as <-.
  exists LS, (set_ambi s h'), a, rows, azk, zek. split; [exact E|]. split; [exact LA|]. split; [exact UR|]. split; [exists (nth 0 a 0); auto|].
  split; [exact F2|]. split; [exact AK|]. split; [exact RG|]. split; [exact CG|]. intros l t Hl Ht. rewrite NG by assumption. f_equal. apply rsum_ext. intros k Hk. f_equal.
  apply rsum_ext. intros n Hn. rewrite <- rsum_scal. apply rsum_ext. intros i Hi. ring.
Qed.
Lemma same_order_bad N F : (nr F < (N + 1) ^ 2 \/ (N + 2) ^ 2 <= nr F)%nat -> same_order (Some N) F = Err AssertionError.
Proof.
  intros H. unfold same_order. destruct (Z.eqb_spec (Z.of_nat N) (order_of (nr F))) as [E|E]; [|reflexivity]. exfalso.
  destruct H as [H|H]; [pose proof (order_lt N _ H) as Q; apply Z.leb_gt in Q; lia|].
  replace (N + 2)%nat with (S N + 1)%nat in H by lia. pose proof (order_le (S N) _ H) as Q. apply Z.leb_le in Q. lia.
Qed.
Theorem f_allra_errors : forall lstsq3 jobs sched src F s N_sph,
  (s_ambi s = None \/ s_kernel s = None ->
   allrap lstsq3 jobs sched src s N_sph = (Err ValueError, s) /\ allrap2 lstsq3 jobs sched src s N_sph = (Err ValueError, s) /\
   allrad lstsq3 jobs sched F s N_sph = (Err ValueError, s) /\ allrad2 lstsq3 jobs sched F s N_sph = (Err ValueError, s)) /\
  forall h kp N, ambi_ready s h kp -> order_in_force N_sph s N -> (nr F < (N + 1) ^ 2 \/ (N + 2) ^ 2 <= nr F)%nat ->
   allrad lstsq3 jobs sched F s N_sph = (Err AssertionError, s) /\ allrad2 lstsq3 jobs sched F s N_sph = (Err AssertionError, s).
Proof.
  intros lstsq3 jobs sched src F s N_sph. split.
  - intros H. assert (E : ambi_kernel s = Err ValueError) by (unfold ambi_kernel; destruct H as [->| ->]; [reflexivity|destruct (s_ambi s); reflexivity]).
    unfold allrap, allrap2, allrad, allrad2. rewrite E. cbn [bind]. auto.
  - intros h kp N (SA & [Nk SK] & KN) OF H. assert (E : ambi_kernel s = Ok (h, (kp, Nk))) by (unfold ambi_kernel; rewrite SA, SK; reflexivity).
    unfold allrad, allrad2. rewrite E. cbn [bind]. rewrite (order_force _ _ _ OF), same_order_bad by exact H. cbn [bind]. auto.
Qed.

(** ** SAD, MAD, EPAD on any layout *)
Theorem f_sad : forall lstsq3 F s N azi zen, let L := length (h_points (s_hull s)) in
  (forall p, In p (h_points (s_hull s)) -> p <> (0, 0, 0)) -> angles_of (h_points (s_hull s)) azi zen -> ((N + 1) ^ 2 <= nr F)%nat ->
  exists LS, sad lstsq3 F s (Some N) = Ok (Some LS) /\ nr LS = L /\ nc LS = nc F /\
    forall l t, (l < L)%nat -> (t < nc F)%nat -> ent LS l t = 4 * PI / ((INR N + 1) * sqrt (INR L)) * field_value sh_real N (map (fun k => ent F k t) (seq 0 (nr F))) (nth l azi 0) (nth l zen 0).
Proof.
  intros lstsq3 F s N azi zen L NZ AN RF. destruct (ls_matrix_ok N (s_hull s) NZ) as (Y & EY & RY & CY & NY). fold L in RY, NY.
  destruct (sad_ok lstsq3 F s N Y EY RF) as (LS & E & P1 & P2 & P3 & P4). fold L in P1, P2, P3, P4. cbn [sad_D mscal nr nc ent first_rows] in *.
  exists LS. split; [exact E|]. split; [congruence|]. split; [exact P3|]. intros l t Hl Ht. rewrite P4 by (rewrite ?RY; assumption). rewrite CY.
  assert (LP : 0 < INR L) by (apply lt_0_INR; lia). pose proof PI_RGT_0. pose proof (INR_sq_pos N).
  assert (SC : sqrt (4 * PI / INR L) * sqrt (4 * PI / INR ((N + 1) ^ 2)) = 4 * PI / ((INR N + 1) * sqrt (INR L))).
  { rewrite <- sqrt_mult by (apply frac_nonneg; lra). pose proof (sqrt_lt_R0 _ LP) as SL. pose proof (pos_INR N).
    replace (4 * PI / INR L * (4 * PI / INR ((N + 1) ^ 2))) with ((4 * PI / ((INR N + 1) * sqrt (INR L))) * (4 * PI / ((INR N + 1) * sqrt (INR L)))).
    - apply sqrt_square. apply frac_nonneg; [lra|]. apply Rmult_lt_0_compat; lra.
    - rewrite sq2, mult_INR, plus_INR. cbn [INR]. replace (INR L) with (sqrt (INR L) * sqrt (INR L)) at 3 by (apply sqrt_sqrt; lra). field. split; lra. }
  rewrite <- SC. unfold field_value. rewrite <- rsum_scal, sq2, rsum_acn. apply rsum_ext. intros n Hn. rewrite <- rsum_scal. apply rsum_ext. intros k Hk.
  rewrite (NY azi zen) by (auto; lia). assert (KN : (n * n + k < nr F)%nat) by (rewrite sq2 in RF; nia). rewrite (nth_map_seq (fun k => ent F k t)) by exact KN. ring.
Qed.
Lemma penrose_tr Y P : penrose Y P -> penrose (mtr Y) (mtr P).
Proof.
  intros (A & B & P1 & P2 & P3 & P4). unfold penrose. cbn [mtr nr nc].
  assert (T1 : forall n i j, mprod n (mtr Y) (mtr P) i j = mprod n P Y j i) by (intros; unfold mprod; cbn [mtr ent]; apply rsum_ext; intros; ring).
  assert (T2 : forall n i j, mprod n (mtr P) (mtr Y) i j = mprod n Y P j i) by (intros; unfold mprod; cbn [mtr ent]; apply rsum_ext; intros; ring).
  assert (AS1 : forall i j, rsum (nc Y) (fun k => ent Y i k * mprod (nr Y) P Y k j) = rsum (nr Y) (fun k => mprod (nc Y) Y P i k * ent Y k j)).
  { intros i j. unfold mprod. rewrite (rsum_ext _ _ (fun k => rsum (nr Y) (fun q => ent Y i k * ent P k q * ent Y q j))) by (intros; rewrite <- rsum_scal; apply rsum_ext; intros; ring).
    rewrite rsum_swap. apply rsum_ext. intros q Hq. rewrite rsum_scal_r. reflexivity. }
  assert (AS2 : forall i j, rsum (nr Y) (fun k => ent P i k * mprod (nc Y) Y P k j) = rsum (nc Y) (fun k => mprod (nr Y) P Y i k * ent P k j)).
  { intros i j. unfold mprod. rewrite (rsum_ext _ _ (fun k => rsum (nc Y) (fun q => ent P i k * ent Y k q * ent P q j))) by (intros; rewrite <- rsum_scal; apply rsum_ext; intros; ring).
    rewrite rsum_swap. apply rsum_ext. intros q Hq. rewrite rsum_scal_r. reflexivity. }
  split; [exact B|]. split; [exact A|]. split; [|split; [|split]].
  - intros i j Hi Hj. rewrite (rsum_ext _ _ (fun k => ent Y j k * mprod (nr Y) P Y k i)) by (intros; rewrite T1; cbn [mtr ent]; ring). rewrite AS1. cbn [mtr ent]. apply P1; assumption.
  - intros i j Hi Hj. rewrite (rsum_ext _ _ (fun k => ent P j k * mprod (nc Y) Y P k i)) by (intros; rewrite T2; cbn [mtr ent]; ring). rewrite AS2. cbn [mtr ent]. apply P2; assumption.
  - intros i j Hi Hj. rewrite !T1. symmetry. apply P4; assumption.
  - intros i j Hi Hj. rewrite !T2. symmetry. apply P3; assumption.
Qed.
Theorem f_mad : forall lstsq3 pinv F s N Y,
  ls_matrix N (s_hull s) = Ok (Some Y) -> penrose Y (pinv Y) -> ((N + 1) ^ 2 <= nr F)%nat ->
  exists LS, mad lstsq3 pinv F s (Some N) = Ok (Some LS) /\ nr LS = length (h_points (s_hull s)) /\ nc LS = nc F /\
    forall t, (t < nc F)%nat -> best_fit (mtr Y) (fun c => sqrt (INR (nr LS)) / (INR N + 1) * ent F c t) (fun l => ent LS l t).
Proof.
  intros lstsq3 pinv F s N Y EY PE RF. destruct (ls_matrix_dims _ _ _ EY) as [RY CY]. set (L := length (h_points (s_hull s))) in *.
  destruct (mad_ok lstsq3 pinv F s N Y EY PE RF) as (LS & E & P1 & P2 & P3 & P4). fold L in P1, P2, P3, P4. destruct PE as (RP & CP & PE'). assert (PE := conj RP (conj CP PE')). clear PE'.
  cbn [mad_D mscal mtr nr nc ent first_rows] in *. exists LS. split; [exact E|]. split; [congruence|]. split; [exact P3|]. intros t Ht.
  assert (SC : sqrt (INR L / INR ((N + 1) ^ 2)) = sqrt (INR L) / (INR N + 1)).
  { pose proof (pos_INR N). rewrite sqrt_div_alt by apply INR_sq_pos. f_equal. rewrite sq2, mult_INR, plus_INR. cbn [INR]. apply sqrt_square. lra. }
  assert (R0 : nr LS = L) by congruence. rewrite R0, <- SC. set (d := sqrt (INR L / INR ((N + 1) ^ 2))) in *.
  pose proof (pinv_fit (mtr Y) (mtr (pinv Y)) (fun c => d * ent F c t) (penrose_tr _ _ PE)) as B. cbn [mtr nr nc ent] in B.
  intros c'. specialize (B c'). unfold misfit, size2 in *. cbn [mtr nr nc ent] in *.
  assert (X : forall l, (l < nr Y)%nat -> rsum (nc Y) (fun g => ent (pinv Y) g l * (d * ent F g t)) = ent LS l t).
  { intros l Hl. rewrite P4 by (rewrite ?CP; assumption). rewrite RP. apply rsum_ext. intros k Hk. ring. }
  rewrite (rsum_ext (nc Y) (fun g => (rsum (nr Y) (fun k => ent Y k g * rsum (nc Y) (fun g0 => ent (pinv Y) g0 k * (d * ent F g0 t))) - d * ent F g t) ^ 2)
     (fun g => (rsum (nr Y) (fun k => ent Y k g * ent LS k t) - d * ent F g t) ^ 2)) in B.
  - rewrite (rsum_ext (nr Y) (fun k => rsum (nc Y) (fun g => ent (pinv Y) g k * (d * ent F g t)) ^ 2) (fun k => ent LS k t ^ 2)) in B; [exact B|].
    intros l Hl. rewrite X by exact Hl. reflexivity.
  - intros g Hg. f_equal. f_equal. apply rsum_ext. intros l Hl. rewrite X by exact Hl. reflexivity.
Qed.
(** fewer loudspeakers than harmonics *)
Lemma coisometry_energy c D F LS t : 0 < c -> (forall l l', (l < nr D)%nat -> (l' < nr D)%nat -> rsum (nc D) (fun a => ent D l a * ent D l' a) = c * delta l l') ->
  product D F LS -> (t < nc F)%nat -> col_energy LS t <= c * col_energy F t.
Proof.
  intros C0 O (E1 & E2 & E3 & E4) Ht. unfold col_energy. rewrite E2, <- E1.
  set (y := fun l => ent LS l t). set (f := fun a => ent F a t).
  assert (YF : forall l, (l < nr D)%nat -> y l = rsum (nc D) (fun a => ent D l a * f a)) by (intros; apply E4; assumption).
  assert (P : 0 <= rsum (nc D) (fun a => (c * f a - rsum (nr D) (fun l => ent D l a * y l)) ^ 2)) by (apply rsum_nonneg; intros; apply pow2_ge_0).
  assert (Q : rsum (nc D) (fun a => (c * f a - rsum (nr D) (fun l => ent D l a * y l)) ^ 2) = c * c * rsum (nc D) (fun a => f a * f a) - c * rsum (nr D) (fun l => y l * y l)).
  { rewrite (rsum_ext _ _ (fun a => c * c * (f a * f a) + (- (2 * c)) * (f a * rsum (nr D) (fun l => ent D l a * y l)) + rsum (nr D) (fun l => ent D l a * y l) * rsum (nr D) (fun l => ent D l a * y l))) by (intros; ring).
    rewrite !rsum_plus, !rsum_scal.
    assert (X1 : rsum (nc D) (fun a => f a * rsum (nr D) (fun l => ent D l a * y l)) = rsum (nr D) (fun l => y l * y l)).
    { rewrite (rsum_ext _ _ (fun a => rsum (nr D) (fun l => y l * (ent D l a * f a)))) by (intros; rewrite <- rsum_scal; apply rsum_ext; intros; ring).
      rewrite rsum_swap. apply rsum_ext. intros l Hl. rewrite rsum_scal, <- YF by exact Hl. reflexivity. }
    assert (X2 : rsum (nc D) (fun a => rsum (nr D) (fun l => ent D l a * y l) * rsum (nr D) (fun l => ent D l a * y l)) = c * rsum (nr D) (fun l => y l * y l)).
    { rewrite (rsum_ext _ _ (fun a => rsum (nr D) (fun l => rsum (nr D) (fun k => y l * y k * (ent D l a * ent D k a))))).
      - rewrite rsum_swap, <- rsum_scal. apply rsum_ext. intros l Hl. rewrite rsum_swap. rewrite (rsum_ext _ _ (fun k => delta l k * (c * (y l * y k)))).
        + apply (rsum_delta_l (nr D) l (fun k => c * (y l * y k)) Hl).
        + intros k Hk. rewrite rsum_scal, O by assumption. ring.
      - intros a Ha. rewrite rsum_mult. apply rsum_ext. intros l Hl. apply rsum_ext. intros k Hk. ring. }
    rewrite X1, X2. ring. }
  rewrite Q in P. change (rsum (nr D) (fun l => y l * y l) <= c * rsum (nc D) (fun a => f a * f a)).
  apply (Rmult_le_reg_l c); [exact C0|]. rewrite <- Rmult_assoc. lra.
Qed.
Theorem f_epad_few : forall lstsq3 svd F s N Y U sv VH,
  ls_matrix N (s_hull s) = Ok (Some Y) -> svd Y = (U, sv, VH) -> is_svd Y U sv VH ->
  ((N + 1) ^ 2 <= nr F)%nat -> (0 < length (h_points (s_hull s)) < (N + 1) ^ 2)%nat ->
  let K := ((N + 1) ^ 2)%nat in
  exists LS D, epad lstsq3 svd F s (Some N) = Ok (Some LS) /\ nr D = nr Y /\ nc D = nc Y /\ product D (first_rows K F) LS /\
    (forall l l', (l < nr Y)%nat -> (l' < nr Y)%nat -> rsum K (fun a => ent D l a * ent D l' a) = 4 * PI / INR K * delta l l') /\
    (forall t, (t < nc F)%nat -> col_energy LS t <= 4 * PI / INR K * rsum K (fun k => ent F k t * ent F k t)) /\
    let M := fun a b => rsum (nr Y) (fun l => ent D l a * ent Y l b) in
    (forall a b, (a < nc Y)%nat -> (b < nc Y)%nat -> M a b = M b a) /\
    (forall x, 0 <= rsum (nc Y) (fun a => rsum (nc Y) (fun b => x a * M a b * x b))).
Proof.
  intros lstsq3 svd F s N Y U sv VH EY ES SV RF LL K. destruct (ls_matrix_dims _ _ _ EY) as [RY CY]. set (L := length (h_points (s_hull s))) in *.
  destruct (epad_ok lstsq3 svd F s N Y U sv VH EY ES SV RF) as (LS & E & P). fold L in P. exists LS, (epad_D N L U VH). split; [exact E|]. split; [cbn [epad_D nr]; congruence|]. split; [cbn [epad_D nc]; congruence|].
  split; [exact P|]. pose proof PI_RGT_0. pose proof (lt_0_INR L ltac:(lia)) as LP. pose proof (INR_sq_pos N) as KP. fold K in KP.
  assert (O : forall l l', (l < nr Y)%nat -> (l' < nr Y)%nat -> rsum K (fun a => ent (epad_D N L U VH) l a * ent (epad_D N L U VH) l' a) = 4 * PI / INR K * delta l l').
  { destruct SV as ((RU & CU & U1 & U2) & (RV & CV & V1 & V2) & _). rewrite RY in *. rewrite CY in *. fold K in V1, V2, RV, CV. intros l l' Hl Hl'. cbn [epad_D ent]. fold K. replace (Nat.min L K) with L by lia.
    pose proof (sqrt_sq_mult (INR L / INR K) (4 * PI / INR L) ltac:(apply frac_nonneg; lra) ltac:(apply frac_nonneg; lra)) as SQ.
    replace (INR L / INR K * (4 * PI / INR L)) with (4 * PI / INR K) in SQ by (field; split; lra).
    rewrite (rsum_ext K _ (fun a => 4 * PI / INR K * rsum L (fun k => rsum L (fun q => ent U l k * ent U l' q * (ent VH k a * ent VH q a))))).
    - rewrite rsum_scal. f_equal. rewrite rsum_swap. rewrite <- (U2 l l' Hl Hl'). apply rsum_ext. intros k Hk. rewrite rsum_swap.
      rewrite (rsum_ext L _ (fun q => delta k q * (ent U l k * ent U l' q))).
      + exact (rsum_delta_l L k (fun q => ent U l k * ent U l' q) Hk).
      + intros q Hq. rewrite rsum_scal, V2 by lia. ring.
    - intros a Ha. rewrite <- SQ. set (x := rsum L (fun k => ent U l k * ent VH k a)). set (y := rsum L (fun k => ent U l' k * ent VH k a)).
      assert (XY : rsum L (fun k => rsum L (fun q => ent U l k * ent U l' q * (ent VH k a * ent VH q a))) = x * y).
      { unfold x, y. rewrite rsum_mult. apply rsum_ext. intros k Hk. apply rsum_ext. intros. ring. }
      rewrite XY. ring. }
  split; [exact O|]. split.
  - intros t Ht. rewrite <- (first_rows_energy K F t RF). apply (coisometry_energy (4 * PI / INR K) (epad_D N L U VH) (first_rows K F) LS t).
    + apply Rdiv_lt_0_compat; lra.
    + intros l l' Hl Hl'. cbn [epad_D nr nc] in Hl, Hl' |- *. apply O; congruence.
    + exact P.
    + exact Ht.
  - rewrite RY. exact (epad_polar N L Y U sv VH ltac:(lia) RY CY SV).
Qed.
