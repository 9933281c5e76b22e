(** Final forms and example data for sph.py. *)
From Verif Require Import Base BaseFacts M_utils S_utils P_utils M_sig P_sig M_sph0 M_sph S_linalg S_sph P_linalg
  P_sph1 P_sph2 P_sph3 P_sph4 P_sph5 P_sph6 P_sph7 P_sph8 P_sph9 P_sph10 P_sph11 P_sph12 P_sph13.
Open Scope R_scope.

Definition octahedron : list V3 := [(1, 0, 0); (-1, 0, 0); (0, 1, 0); (0, -1, 0); (0, 0, 1); (0, 0, -1)].
Lemma Yz2 m : degree 2 m -> exists c p, (forall v, dot3 v v = 1 -> Yz 2 m v = c * p v) /\ lsum (map p octahedron) = 0.
Proof.
  intros D. unfold degree in D.
  assert (C : (m = -2 \/ m = -1 \/ m = 0 \/ m = 1 \/ m = 2)%Z) by lia.
  destruct C as [-> | [-> | [-> | [-> | ->]]]].
  - exists (sqrt 2 * nk 2 2 * 3), (fun v => 2 * vx v * vy v). split; [|unfold octahedron, vx, vy, vz; simpl; ring].
    intros v H. change (-2)%Z with (- Z.of_nat 2)%Z. rewrite Yz_neg. unfold ts, Hs, Q. cbn. field.
  - exists (sqrt 2 * nk 2 1 * 3), (fun v => vy v * vz v). split; [|unfold octahedron, vx, vy, vz; simpl; ring].
    intros v H. change (-1)%Z with (- Z.of_nat 1)%Z. rewrite Yz_neg. unfold ts, Hs, Q. cbn. field.
  - exists (nk 2 0), (fun v => (3 * vz v * vz v - 1) / 2). split; [|unfold octahedron, vx, vy, vz; simpl; field].
    intros v H. rewrite Yz_0. unfold tc, Hc, Q. rewrite H. cbn. field. apply Rgt_not_eq, sqrt_lt_R0; lra.
  - exists (sqrt 2 * nk 2 1 * 3), (fun v => vx v * vz v). split; [|unfold octahedron, vx, vy, vz; simpl; ring].
    intros v H. change 1%Z with (Z.of_nat 1)%Z. rewrite Yz_pos. unfold tc, Hc, Q. cbn. field.
  - exists (sqrt 2 * nk 2 2 * 3), (fun v => vx v * vx v - vy v * vy v). split; [|unfold octahedron, vx, vy, vz; simpl; ring].
    intros v H. change 2%Z with (Z.of_nat 2)%Z. rewrite Yz_pos. unfold tc, Hc, Q. cbn. field.
Qed.
Lemma Yz1_sum m : degree 1 m -> exists c p, (forall v, dot3 v v = 1 -> Yz 1 m v = c * p v) /\ lsum (map p octahedron) = 0.
Proof.
  intros D. unfold degree in D. assert (C : (m = -1 \/ m = 0 \/ m = 1)%Z) by lia.
  destruct C as [-> | [-> | ->]].
  - eexists _, vy. split; [intros v _; apply (proj1 (Yz1 v))|unfold octahedron, vy; simpl; ring].
  - eexists _, vz. split; [intros v _; apply (proj1 (proj2 (Yz1 v)))|unfold octahedron, vz; simpl; ring].
  - eexists _, vx. split; [intros v _; apply (proj2 (proj2 (Yz1 v)))|unfold octahedron, vx; simpl; ring].
Qed.
(** angles whose unit vectors are the vertices of the octahedron *)
Lemma octa_exact azi zen : length azi = 6%nat -> length zen = 6%nat -> zeniths zen ->
  (forall i, (i < 6)%nat -> sph2cart (nth i azi 0) (nth i zen 0) 1 = nth i octahedron (0, 0, 0)) ->
  exact_for sh_real 2 azi zen (equal_weights 6).
Proof.
  intros La Lz Z H. split; [congruence|]. split; [unfold equal_weights; rewrite repeat_length; auto|]. split; auto.
  split; [apply lsum_equal_weights; lia|]. intros n m Hn Hd. rewrite La.
  assert (X : exists c p, (forall v, dot3 v v = 1 -> Yz n m v = c * p v) /\ lsum (map p octahedron) = 0).
  { assert (C : n = 1%nat \/ n = 2%nat) by lia. destruct C as [-> | ->]; [apply Yz1_sum|apply Yz2]; auto. }
  destruct X as (c & p & Hp & Sp).
  rewrite (rsum_ext 6 _ (fun j => 4 * PI / INR 6 * c * nth j (map p octahedron) 0)).
  - rewrite rsum_scal. replace 6%nat with (length (map p octahedron)) at 2 by reflexivity. rewrite <- lsum_rsum, Sp. ring.
  - intros j Hj. rewrite nth_equal_weights by auto. rewrite sh_real_Yz by (apply zeniths_nth; auto; lia).
    rewrite (nth_map_in p octahedron j 0 (0, 0, 0)) by (simpl; auto). rewrite H by auto. rewrite Hp; [ring|].
    assert (U : forall v, In v octahedron -> dot3 v v = 1).
    { intros v Hv. unfold octahedron in Hv. simpl in Hv. unfold dot3, vx, vy, vz. repeat destruct Hv as [<-|Hv]; simpl; try ring. destruct Hv. }
    apply U, nth_In. simpl; auto.
Qed.
Definition octa_azi : list R := [0; PI; PI / 2; 3 * (PI / 2); 0; 0].
Definition octa_zen : list R := [PI / 2; PI / 2; PI / 2; PI / 2; 0; PI].
Lemma octa_grid : exact_for sh_real 2 octa_azi octa_zen (equal_weights 6).
Proof.
  apply octa_exact; auto.
  - pose proof PI_RGT_0. intros z Hz. unfold octa_zen in Hz. simpl in Hz. repeat destruct Hz as [<-|Hz]; try lra.
  - intros i Hi. unfold octa_azi, octa_zen, octahedron, sph2cart.
    do 6 (destruct i as [|i]; [cbn [nth]; rewrite ?cos_PI2, ?sin_PI2, ?cos_PI, ?sin_PI, ?cos_0, ?sin_0, ?cos_3PI2, ?sin_3PI2; f_equal; [f_equal|]; ring|]). lia.
Qed.
Lemma octa_vec2dir : (forall u, In u octahedron -> dot3 u u = 1) /\
  exact_for sh_real 2 (map (fun u => fst (vec2dir u)) octahedron)
    (map (fun u => match snd (vec2dir u) with Some z => z | None => 0 end) octahedron) (equal_weights 6).
Proof.
  assert (U : forall v, In v octahedron -> dot3 v v = 1).
  { intros v Hv. unfold octahedron in Hv. simpl in Hv. unfold dot3, vx, vy, vz. repeat destruct Hv as [<-|Hv]; simpl; try ring. destruct Hv. }
  split; auto. apply octa_exact; try (rewrite map_length; reflexivity).
  - intros z Hz. apply in_map_iff in Hz. destruct Hz as (v & <- & Hv). destruct (vec2dir_dir v (U v Hv)) as (zen & E & Hz & _). rewrite E. exact Hz.
  - intros i Hi. rewrite (nth_map_in (fun u => fst (vec2dir u)) octahedron i 0 (0,0,0)), (nth_map_in (fun u => match snd (vec2dir u) with Some z => z | None => 0 end) octahedron i 0 (0,0,0)) by (simpl; auto).
    destruct (vec2dir_dir (nth i octahedron (0,0,0))) as (zen & E & Hz & S); [apply U, nth_In; simpl; auto|]. rewrite E. cbn [snd fst]. 
    rewrite E in S. exact S.
Qed.

(** ** final forms *)
Lemma dirac_final N d w : length w = (N + 1)%nat -> exists v, bandlimited_dirac N d (Some w) = Ok v /\ length v = length d /\
  forall i a1 z1 a2 z2, (i < length d)%nat -> 0 <= z1 <= PI -> 0 <= z2 <= PI -> dot3 (sph2cart a1 z1 1) (sph2cart a2 z2 1) = cos (nth i d 0) ->
    nth i v 0 = rsum (N + 1) (fun n => nth n w 0 * rsum (2 * n + 1) (fun k => sh_real n (Z.of_nat k - Z.of_nat n) a1 z1 * sh_real n (Z.of_nat k - Z.of_nat n) a2 z2)).
Proof.
  intros L. rewrite dirac_ok by auto. eexists. split; [reflexivity|]. rewrite map_length. split; auto. intros i a1 z1 a2 z2 Hi H1 H2 E.
  rewrite (nth_map_in (dirac_at w) d i 0 0) by auto. rewrite (dirac_pattern w _ a1 z1 a2 z2) by auto. rewrite L. reflexivity.
Qed.
Lemma dirac_peak N d w : length w = (N + 1)%nat -> exists v, bandlimited_dirac N d (Some w) = Ok v /\ length v = length d /\
  (forall i, (i < length d)%nat -> nth i d 0 = 0 -> nth i v 0 = rsum (N + 1) (fun n => nth n w 0 * (2 * INR n + 1) / (4 * PI))) /\
  ((forall x, In x w -> 0 <= x) -> forall i, (i < length d)%nat -> Rabs (nth i v 0) <= rsum (N + 1) (fun n => nth n w 0 * (2 * INR n + 1) / (4 * PI))).
Proof.
  intros L. rewrite dirac_ok by auto. eexists. split; [reflexivity|]. rewrite map_length. split; auto. rewrite <- L. split.
  - intros i Hi E. rewrite (nth_map_in (dirac_at w) d i 0 0), E by auto. apply dirac_zero.
  - intros H i Hi. rewrite (nth_map_in (dirac_at w) d i 0 0), <- dirac_zero by auto. apply dirac_max; auto.
Qed.
Lemma rE_final p g : length p = length g -> (exists x, In x g /\ x <> 0) -> exists v, r_E_row p g = (Some v, norm3 v) /\ convex_comb p v /\
  (forall rho, (forall u, In u p -> norm3 u <= rho) -> norm3 v <= rho) /\ (forall k, k <> 0 -> r_E_row p (map (Rmult k) g) = (Some v, norm3 v)).
Proof.
  intros L H. destruct (rE_convex p g L H) as (v & E & C). exists v. split; auto. split; auto. split; [intros; apply (convex_norm p v); auto|].
  intros k K. rewrite rE_scale; auto.
Qed.
Lemma rE_rows p g cols : length p = cols -> r_E p g cols = Ok (map (r_E_row p) g).
Proof. intros <-. unfold r_E. rewrite Nat.eqb_refl. reflexivity. Qed.
Lemma rE_mismatch p g cols : length p <> cols -> r_E p g cols = Err AssertionError.
Proof. intros H. unfold r_E. destruct (Nat.eqb_spec (length p) cols); [contradiction|reflexivity]. Qed.
Lemma fb_perfect_signal pinv N azi zen c Y : length zen = length azi -> zeniths zen -> (0 < length azi)%nat ->
  sh_matrix N azi zen = Ok Y -> sector_grid Y (length azi) -> length c = (N + 1)%nat -> (forall x, In x c -> x <> 0) ->
  exists A B, design_sph_filterbank pinv N azi zen c MPerfect = Ok (Some (A, B)) /\
    (exists P, matmul B A = Ok P /\ is_identity ((N + 1) ^ 2) P) /\
    forall X, nr X = ((N + 1) ^ 2)%nat -> exists S X', matmul A X = Ok S /\ nr S = length azi /\ matmul B S = Ok X' /\ meq X' X.
Proof.
  intros L Z HJ EY HG Lc Hc. destruct (fb_perfect pinv N azi zen c Y L Z HJ EY HG Lc Hc) as (A & B & P & E & RA & CA & RB & CB & EP & HP).
  exists A, B. split; auto. split; [eauto|]. intros X HX.
  assert (EX : nc A = nr X) by congruence. pose proof (matmul_ok A X EX) as ES.
  destruct (fb_signal B A P ((N + 1) ^ 2) X _ EP HP (eq_trans RA (eq_sym CB)) HX CA ES) as (X' & E' & M').
  eexists _, X'. split; [exact ES|]. split; [cbn [nr]; auto|]. split; auto.
Qed.
Lemma sht_exact N azi zen w F : exact_for sh_real (2 * N) azi zen w -> nr F = ((N + 1) ^ 2)%nat ->
  exists f F', inverse_sht F azi zen None None = Ok f /\ sht f N azi zen (Some w) None = Ok F' /\ meq F' F.
Proof.
  intros H HF. destruct (gram_grid N azi zen w H) as (Y & E & R & C & O_). destruct H as (_ & L & _).
  apply (sht_inverts N azi zen w Y F); auto.
Qed.
Lemma sht_exact_default N azi zen F : exact_for sh_real (2 * N) azi zen (equal_weights (length azi)) -> nr F = ((N + 1) ^ 2)%nat ->
  exists f F', inverse_sht F azi zen None None = Ok f /\ sht f N azi zen None None = Ok F' /\ meq F' F.
Proof.
  intros H HF. destruct (gram_grid N azi zen _ H) as (Y & E & R & C & O_). apply (sht_inverts_default N azi zen Y F); auto.
Qed.
Lemma order0_refuted : exists F, nc F = ((0 + 1) ^ 2)%nat /\ rotate_sh F 0 0 0 ShReal = Err ValueError.
Proof. exists (Mat 1 1 (fun _ _ => 1)). split; auto. apply rotate_sh_order0. reflexivity. Qed.
Lemma conv_partial_identity F axis : (axis <= 1)%nat -> chan axis F = 2%nat \/ chan axis F = 3%nat ->
  exists G H, n3d_to_sn3d F axis = Ok G /\ meq G F /\ sn3d_to_n3d F axis = Ok H /\ meq H F.
Proof.
  intros HA HC.
  assert (S1 : sqrt (2 * INR 0 + 1) = 1) by (change (INR 0) with 0; rewrite Rmult_0_r, Rplus_0_l; apply sqrt_1).
  destruct (conv_two_three (fun n => 1 / sqrt (2 * INR n + 1)) F axis HA HC) as (G & EG & RG & CG & HG).
  destruct (conv_two_three (fun n => sqrt (2 * INR n + 1)) F axis HA HC) as (H & EH & RH & CH & HH).
  exists G, H. split; [exact EG|]. split; [split; auto; split; auto; intros i j _ _; rewrite HG, S1; field|].
  split; [exact EH|]. split; auto; split; auto; intros i j _ _; rewrite HH, S1; ring.
Qed.
