(** sh_music finds sources; pattern beamformers; sector beamformers (helpers for
    C43, C12, C75). *)
From Coq Require Import Lra Lia.
From Verif Require Import Base BaseFacts M_utils M_sig M_sph0 M_sph M_parsa S_linalg S_sph S_parsa P_sig P_sph5 P_sph7 P_sph8 P_sph9 P_sph12 P_sph13 P_parsa1 P_parsa2 P_parsa3.
Open Scope R_scope.

(** ** More unknowns than equations *)
Definition skip (p j : nat) : nat := if Nat.ltb j p then j else S j.
Lemma rsum_skip n p f : (p < n)%nat -> rsum n f = f p + rsum (n - 1) (fun j => f (skip p j)).
Proof.
  intros H. replace n with (p + S (n - 1 - p))%nat at 1 by lia. rewrite rsum_app, rsum_shift. replace (n - 1)%nat with (p + (n - 1 - p))%nat by lia.
  rewrite rsum_app. replace (p + (n - 1 - p) - p)%nat with (n - 1 - p)%nat by lia. rewrite Nat.add_0_r.
  rewrite (rsum_ext p (fun j => f (skip p j)) f) by (intros i Hi; unfold skip; rewrite (proj2 (Nat.ltb_lt i p)) by auto; reflexivity).
  rewrite (rsum_ext (n - 1 - p) (fun i => f (skip p (p + i))) (fun i => f (p + S i)%nat)); [ring|].
  intros i Hi. unfold skip. rewrite (proj2 (Nat.ltb_ge (p + i) p)) by lia. f_equal. lia.
Qed.
Lemma homogeneous m : forall n (A : nat -> nat -> R), (m < n)%nat ->
  exists x, (exists i, (i < n)%nat /\ x i <> 0) /\ forall r, (r < m)%nat -> rsum n (fun j => A r j * x j) = 0.
Proof.
  induction m as [|m IH]; intros n A H.
  - exists (fun _ => 1). split; [exists O; split; auto; lra|]. intros; lia.
  - assert (D : forall k, (exists p, (p < k)%nat /\ A m p <> 0) \/ forall p, (p < k)%nat -> A m p = 0).
    { induction k as [|k IK]; [right; intros; lia|]. destruct IK as [(p & B & C)|IK]; [left; exists p; split; auto; lia|].
      destruct (Req_dec (A m k) 0); [|left; exists k; auto]. right. intros p Hp. destruct (Nat.eq_dec p k); [subst; auto|apply IK; lia]. }
    destruct (D n) as [(p & Hp & NZ)|Z].
    + destruct (IH (n - 1)%nat (fun r j => A r (skip p j) - A r p * A m (skip p j) / A m p)) as (x & (i & Hi & Nx) & Hx); [lia|].
      set (s := rsum (n - 1) (fun j => A m (skip p j) * x j)).
      set (y := fun i => if Nat.ltb i p then x i else if Nat.eqb i p then - s / A m p else x (i - 1)%nat).
      assert (YP : y p = - s / A m p) by (unfold y; rewrite Nat.ltb_irrefl, Nat.eqb_refl; auto).
      assert (YS : forall j, y (skip p j) = x j).
      { intros j. unfold y, skip. destruct (Nat.ltb_spec j p) as [L|L]; [rewrite (proj2 (Nat.ltb_lt j p)) by auto; auto|].
        rewrite (proj2 (Nat.ltb_ge (S j) p)), (proj2 (Nat.eqb_neq (S j) p)) by lia. f_equal. lia. }
      exists y. split.
      * exists (skip p i). split; [unfold skip; destruct (Nat.ltb i p); lia|]. rewrite YS. auto.
      * intros r Hr. rewrite (rsum_skip n p) by auto. rewrite YP. rewrite (rsum_ext (n - 1) _ (fun j => A r (skip p j) * x j)) by (intros; rewrite YS; auto).
        destruct (Nat.eq_dec r m) as [->|NE].
        -- fold s. field. auto.
        -- specialize (Hx r ltac:(lia)). cbv beta in Hx. rewrite (rsum_ext (n - 1) _ (fun j => A r (skip p j) * x j - A r p / A m p * (A m (skip p j) * x j))) in Hx by (intros; field; auto).
           rewrite rsum_minus, rsum_scal in Hx. fold s in Hx. apply Rplus_eq_reg_l with (A r p * s / A m p). 
           transitivity (rsum (n - 1) (fun j => A r (skip p j) * x j)); [field; auto|]. rewrite Rplus_0_r. replace (A r p * s / A m p) with (A r p / A m p * s) by (field; auto). lra.
    + destruct (IH n A) as (x & Nx & Hx); [lia|]. exists x. split; auto. intros r Hr. destruct (Nat.eq_dec r m) as [->|NE]; [|apply Hx; lia].
      apply rsum_0. intros j Hj. rewrite Z by auto. ring.
Qed.

(** ** Eigenvectors of a covariance of S sources in white noise *)
Section Sources.
Variables (L K : nat) (A : nat -> nat -> R) (w : nat -> R) (V : nat -> nat -> R) (y : nat -> nat -> R) (p : nat -> R) (sg : R).
Hypotheses (AS : forall i j, (i <= j < L)%nat -> w i <= w j)
  (O1 : forall a b, (a < L)%nat -> (b < L)%nat -> rsum L (fun i => V i a * V i b) = delta a b)
  (HA : forall i j, (i < L)%nat -> (j < L)%nat -> A i j = rsum L (fun k => V i k * w k * V j k))
  (HM : forall i j, (i < L)%nat -> (j < L)%nat -> A i j = sg * delta i j + rsum K (fun s => p s * (y s i * y s j)))
  (PP : forall s, (s < K)%nat -> 0 < p s).
Definition proj (k s : nat) : R := rsum L (fun j => y s j * V j k).
Lemma eig_val k i : (k < L)%nat -> (i < L)%nat -> rsum L (fun j => A i j * V j k) = w k * V i k.
Proof.
  intros Hk Hi. rewrite (rsum_ext L _ (fun j => rsum L (fun l => V i l * w l * V j l) * V j k)) by (intros; rewrite HA by auto; auto).
  rewrite (rsum_ext L _ (fun j => rsum L (fun l => V i l * w l * V j l * V j k))) by (intros; rewrite rsum_scal_r; auto). rewrite rsum_swap.
  rewrite (rsum_single L k); auto.
  - rewrite (rsum_ext L _ (fun j => V i k * w k * (V j k * V j k))) by (intros; ring). rewrite rsum_scal, O1, delta_same by auto. ring.
  - intros l Hl NE. rewrite (rsum_ext L _ (fun j => V i l * w l * (V j l * V j k))) by (intros; ring). rewrite rsum_scal, O1, delta_diff by auto. ring.
Qed.
Lemma eig_model k i : (k < L)%nat -> (i < L)%nat -> w k * V i k = sg * V i k + rsum K (fun s => p s * proj k s * y s i).
Proof.
  intros Hk Hi. rewrite <- eig_val by auto. rewrite (rsum_ext L _ (fun j => sg * (delta i j * V j k) + rsum K (fun s => p s * (y s i * y s j)) * V j k)).
  - rewrite rsum_plus, rsum_scal, rsum_delta_l by auto. f_equal. rewrite rmv. apply rsum_ext. intros s Hs. rewrite Rmult_assoc. f_equal. rewrite Rmult_comm. unfold proj. rewrite <- rsum_scal.
    apply rsum_ext. intros; ring.
  - intros j Hj. rewrite HM by auto. ring.
Qed.
Lemma eig_energy k : (k < L)%nat -> w k = sg + rsum K (fun s => p s * (proj k s * proj k s)).
Proof.
  intros Hk. assert (N1 : rsum L (fun i => V i k * V i k) = 1) by (rewrite O1, delta_same by auto; auto).
  assert (E : rsum L (fun i => V i k * (w k * V i k)) = rsum L (fun i => V i k * (sg * V i k + rsum K (fun s => p s * proj k s * y s i)))).
  { apply rsum_ext. intros i Hi. rewrite eig_model at 1 by auto. reflexivity. }
  rewrite (rsum_ext L _ (fun i => w k * (V i k * V i k))) in E by (intros; ring). rewrite rsum_scal, N1 in E.
  rewrite (rsum_ext L (fun i => V i k * (sg * V i k + _)) (fun i => sg * (V i k * V i k) + rsum K (fun s => (p s * proj k s) * y s i) * V i k)) in E by (intros; ring).
  rewrite rsum_plus, rsum_scal, N1, rmv in E. rewrite Rmult_1_r in E. rewrite E. rewrite Rmult_1_r. f_equal. apply rsum_ext. intros s Hs. unfold proj. ring.
Qed.
Lemma low_eigenvalues k : (k < L - K)%nat -> w k = sg.
Proof.
  intros Hk. destruct (Req_dec (w k) sg) as [|NE]; auto. exfalso.
  assert (G : forall l, (l < L)%nat -> sg <= w l).
  { intros l Hl. rewrite eig_energy by auto. assert (0 <= rsum K (fun s => p s * (proj l s * proj l s))); [|lra]. apply rsum_nonneg. intros s Hs. specialize (PP s Hs). pose proof (Rle_0_sqr (proj l s)) as Q. unfold Rsqr in Q. nra. }
  assert (GT : forall l, (k <= l < L)%nat -> sg < w l).
  { intros l Hl. pose proof (AS k l Hl). pose proof (G k ltac:(lia)). lra. }
  (* L - k > K eigenvectors, all in the span of the K sources *)
  destruct (homogeneous K (L - k) (fun s j => p s * proj (k + j) s / (w (k + j)%nat - sg))) as (x & (j0 & Hj0 & Nx) & Hx); [lia|].
  assert (Z : forall i, (i < L)%nat -> rsum (L - k) (fun j => V i (k + j)%nat * x j) = 0).
  { intros i Hi. rewrite (rsum_ext (L - k) _ (fun j => rsum K (fun s => y s i * (p s * proj (k + j) s / (w (k + j)%nat - sg) * x j)))).
    - rewrite rsum_swap. apply rsum_0. intros s Hs. rewrite rsum_scal, Hx by auto. ring.
    - intros j Hj. pose proof (eig_model (k + j) i ltac:(lia) Hi) as E. pose proof (GT (k + j)%nat ltac:(lia)).
      rewrite (rsum_ext K _ (fun s => p s * proj (k + j) s * y s i * (x j / (w (k + j)%nat - sg)))) by (intros; field; lra). rewrite rsum_scal_r.
      replace (rsum K (fun s => p s * proj (k + j) s * y s i)) with ((w (k + j)%nat - sg) * V i (k + j)%nat) by lra. field. lra. }
  apply Nx. transitivity (rsum L (fun i => V i (k + j0)%nat * rsum (L - k) (fun j => V i (k + j)%nat * x j))).
  - rewrite (rsum_ext L _ (fun i => rsum (L - k) (fun j => V i (k + j0)%nat * V i (k + j)%nat * x j))) by (intros; rewrite <- rsum_scal; apply rsum_ext; intros; ring).
    rewrite rsum_swap. rewrite (rsum_single (L - k) j0) by (auto; intros j Hj NE'; rewrite rsum_scal_r, O1, delta_diff by lia; ring).
    rewrite rsum_scal_r, O1, delta_same by lia. ring.
  - apply rsum_0. intros i Hi. rewrite Z by auto. ring.
Qed.
Lemma noise_orthogonal k s : (k < L - K)%nat -> (s < K)%nat -> proj k s = 0.
Proof.
  intros Hk Hs. pose proof (eig_energy k ltac:(lia)) as E. rewrite low_eigenvalues in E by auto.
  assert (Z : rsum K (fun s => p s * (proj k s * proj k s)) = 0) by lra.
  assert (T : p s * (proj k s * proj k s) = 0).
  { apply (rsum_nonneg_0 K (fun s => p s * (proj k s * proj k s))); auto. intros i Hi. specialize (PP i Hi). pose proof (Rle_0_sqr (proj k i)) as Q. unfold Rsqr in Q. nra. }
  specialize (PP s Hs). destruct (Rmult_integral _ _ T) as [|T2]; [lra|]. destruct (Rmult_integral _ _ T2); auto.
Qed.
End Sources.

(** ** MUSIC *)
Theorem music_bounds eigh cov num azi zen P w v : eigh cov = (w, v) -> is_eigh cov w v -> (exists N, nr cov = ((N + 1) ^ 2)%nat) -> length zen = length azi ->
  sh_music eigh cov num azi zen = Ok P -> length P = length azi /\ forall x, In x P -> 0 < x <= 100000000000.
Proof.
  intros E HE (N & KN) HL EP. destruct (music_open eigh cov num azi zen N w v E HE KN HL) as (P' & EP' & LP & HP). rewrite EP in EP'. injection EP' as <-.
  split; auto. intros x Hx. apply (In_nth _ _ 0) in Hx. destruct Hx as (g & Hg & <-). rewrite HP by congruence.
  match goal with |- context [rsum ?n ?f] => assert (0 <= rsum n f); [apply rsum_nonneg; intros; apply pow2_ge_0|set (S := rsum n f) in *] end.
  split; [apply Rdiv_lt_0_compat; lra|]. apply Rmult_le_reg_r with (S + 1 / 100000000000); [lra|]. unfold Rdiv at 1. rewrite Rmult_assoc, Rinv_l by lra. lra.
Qed.
Theorem music_peak eigh cov num azi zen N P w v g : eigh cov = (w, v) -> is_eigh cov w v -> nr cov = ((N + 1) ^ 2)%nat -> length zen = length azi ->
  sh_music eigh cov (Z.of_nat num) azi zen = Ok P -> (1 <= num)%nat -> (g < length azi)%nat ->
  (nth g P 0 = 100000000000 <-> forall k, (k < nr cov - num)%nat ->
     field_value sh_real N (map (fun i => ent v i k) (seq 0 (nr cov))) (nth g azi 0) (nth g zen 0) = 0).
Proof.
  intros E HE KN HL EP Hn Hg. destruct (music_open eigh cov (Z.of_nat num) azi zen N w v E HE KN HL) as (P' & EP' & LP & HP). rewrite EP in EP'. injection EP' as <-.
  rewrite HP by auto. assert (NI : norm_idx (nr cov) (- Z.of_nat num) = (nr cov - num)%nat).
  { unfold norm_idx. destruct (Z.ltb_spec (- Z.of_nat num) 0); lia. }
  rewrite NI. set (f := fun k => field_value sh_real N (map (fun i => ent v i k) (seq 0 (nr cov))) (nth g azi 0) (nth g zen 0) ^ 2).
  assert (NN : 0 <= rsum (nr cov - num) f) by (apply rsum_nonneg; intros; apply pow2_ge_0). split.
  - intros Q k Hk. assert (Z : rsum (nr cov - num) f = 0).
    { assert (1 = 100000000000 * (rsum (nr cov - num) f + 1 / 100000000000)); [|lra]. rewrite <- Q at 1. field. lra. }
    pose proof (rsum_nonneg_0 (nr cov - num) f ltac:(intros; apply pow2_ge_0) Z k Hk) as T. unfold f in T. simpl in T. rewrite Rmult_1_r in T. apply Rmult_integral in T. tauto.
  - intros H. rewrite (rsum_0 _ f). 2:{ intros k Hk. unfold f. rewrite H by auto. ring. } field.
Qed.
Theorem music_no_noise_space eigh cov num azi zen P w v : eigh cov = (w, v) -> is_eigh cov w v -> (exists N, nr cov = ((N + 1) ^ 2)%nat) -> length zen = length azi ->
  (num = 0 \/ Z.of_nat (nr cov) <= num)%Z -> sh_music eigh cov num azi zen = Ok P -> P = repeat 100000000000 (length azi).
Proof.
  intros E HE (N & KN) HL Hn EP. destruct (music_open eigh cov num azi zen N w v E HE KN HL) as (P' & EP' & LP & HP). rewrite EP in EP'. injection EP' as <-.
  apply (nth_ext_list 0); [rewrite repeat_length; auto|]. intros g Hg. rewrite LP in Hg. rewrite HP, nth_repeat_in by auto.
  assert (NI : norm_idx (nr cov) (- num) = O). { unfold norm_idx. destruct (Z.ltb_spec (- num) 0); lia. }
  rewrite NI. simpl. field.
Qed.
(** sources in white noise: cov = sg I + sum_s p_s y_s y_s^T *)
Theorem music_sources eigh cov azi zen N P w v (sa sz p : list R) sg Ys : eigh cov = (w, v) -> is_eigh cov w v -> nr cov = ((N + 1) ^ 2)%nat ->
  length zen = length azi -> length sz = length sa -> length p = length sa -> (forall x, In x p -> 0 < x) -> (1 <= length sa)%nat ->
  sh_matrix N sa sz = Ok Ys ->
  (forall i j, (i < nr cov)%nat -> (j < nr cov)%nat -> ent cov i j = sg * delta i j + rsum (length sa) (fun s => nth s p 0 * (ent Ys s i * ent Ys s j))) ->
  sh_music eigh cov (Z.of_nat (length sa)) azi zen = Ok P ->
  forall s g, (s < length sa)%nat -> (g < length azi)%nat -> nth g azi 0 = nth s sa 0 -> nth g zen 0 = nth s sz 0 -> nth g P 0 = 100000000000.
Proof.
  intros E HE KN HL HS HP PP H1 EY HM EP s g Hs Hg EA EZ. apply (music_peak eigh cov (length sa) azi zen N P w v g E HE KN HL EP H1 Hg).
  intros k Hk. rewrite EA, EZ. rewrite (field_steer N sa sz Ys) by auto. rewrite <- KN.
  destruct HE as (SQ & LW & AS & (RV & CV & O1 & O2) & HA).
  rewrite (rsum_ext _ _ (fun j => ent Ys s j * ent v j k)) by (intros; rewrite nth_map_seq by auto; ring).
  apply (noise_orthogonal (nr cov) (length sa) (ent cov) (fun k => nth k w 0) (ent v) (ent Ys) (fun s => nth s p 0) sg); auto.
  - intros i j Hij. apply AS. lia.
  - intros t Ht. apply PP. apply nth_In. congruence.
Qed.

(** ** Pattern beamformers *)
Lemma pattern_beam c N azi zen : length c = (N + 1)%nat -> length zen = length azi ->
  exists W, sh_beamformer_from_pattern (PWeights c) N azi zen = Ok (Some W) /\ nr W = length azi /\ nc W = ((N + 1) ^ 2)%nat /\
   forall g n k, (g < length azi)%nat -> (n <= N)%nat -> (k < 2 * n + 1)%nat ->
     ent W g (n * n + k) = nth n c 0 * sh_real n (Z.of_nat k - Z.of_nat n) (nth g azi 0) (nth g zen 0).
Proof.
  intros LC HL. unfold sh_beamformer_from_pattern, pattern_weights, assert_. cbn [bind]. rewrite LC, Nat.eqb_refl. cbn [bind].
  destruct (sh_matrix_ok N azi zen HL) as (Y & EY & RY & CY & HY). rewrite EY. cbn [bind].
  destruct (row_scale_ok (repeat_per_order c) Y) as (A & EA & RA & CA & HA); [rewrite rpo_length, LC, CY, sq2; auto|]. rewrite EA. cbn [bind].
  exists A. split; auto. split; [congruence|]. split; [congruence|]. intros g n k Hg Hn Hk.
  rewrite HA by (rewrite ?CY, ?RY, ?sq2; try lia; nia). rewrite rpo_nth by lia. rewrite HY by auto. reflexivity.
Qed.
Lemma pattern_named p N azi zen c : pattern_weights p N = Ok (Some c) ->
  sh_beamformer_from_pattern p N azi zen = sh_beamformer_from_pattern (PWeights c) N azi zen.
Proof. intros E. unfold sh_beamformer_from_pattern. rewrite E. reflexivity. Qed.
Theorem beam_response c N azi zen W az ze (s : list R) : length c = (N + 1)%nat -> length zen = length azi ->
  sh_beamformer_from_pattern (PWeights c) N azi zen = Ok (Some W) ->
  exists F Out, src_to_sh (row_mat s) [az] [ze] N = Ok F /\ sh_beamform W F = Ok Out /\ nr Out = length azi /\ nc Out = length s /\
    forall g t, (g < length azi)%nat -> (t < length s)%nat ->
      ent Out g t = rsum (N + 1) (fun n => nth n c 0 * rsum (2 * n + 1) (fun k =>
         sh_real n (Z.of_nat k - Z.of_nat n) (nth g azi 0) (nth g zen 0) * sh_real n (Z.of_nat k - Z.of_nat n) az ze)) * nth t s 0.
Proof.
  intros LC HL E. destruct (pattern_beam c N azi zen LC HL) as (W' & E' & RW & CW & HW). rewrite E in E'. injection E' as <-.
  unfold src_to_sh, sh_beamform. destruct (sh_matrix_ok N [az] [ze] eq_refl) as (Y & EY & RY & CY & HY). rewrite EY. cbn [bind].
  rewrite matmul_ok by (cbn [nc nr mtr row_mat]; auto). eexists. eexists. split; [reflexivity|].
  rewrite matmul_ok by (cbn [nc nr mtr row_mat]; congruence). split; [reflexivity|]. cbn [nr nc ent mtr row_mat]. split; auto. split; auto.
  intros g t Hg Ht. rewrite CW, RY. cbn [length rsum]. rewrite sq2, rsum_acn. rewrite <- rsum_scal_r. apply rsum_ext. intros n Hn.
  rewrite <- rsum_scal, <- rsum_scal_r. apply rsum_ext. intros k Hk. rewrite HW by (auto; lia). rewrite (HY O n k) by (simpl; lia). cbn [nth]. ring.
Qed.
Lemma response_legendre c N a1 z1 a2 z2 : length c = (N + 1)%nat -> 0 <= z1 <= PI -> 0 <= z2 <= PI ->
  rsum (N + 1) (fun n => nth n c 0 * rsum (2 * n + 1) (fun k => sh_real n (Z.of_nat k - Z.of_nat n) a1 z1 * sh_real n (Z.of_nat k - Z.of_nat n) a2 z2)) =
  rsum (N + 1) (fun n => nth n c 0 * ((2 * INR n + 1) / (4 * PI) * eval_legendre n (dot3 (sph2cart a1 z1 1) (sph2cart a2 z2 1)))).
Proof.
  intros LC H1 H2. set (x := dot3 (sph2cart a1 z1 1) (sph2cart a2 z2 1)).
  assert (B : -1 <= x <= 1).
  { pose proof (dot3_cs (sph2cart a1 z1 1) (sph2cart a2 z2 1)) as Q. rewrite !unit_dir in Q. fold x in Q. nra. }
  pose proof (dirac_pattern c (acos x) a1 z1 a2 z2 H1 H2 ltac:(rewrite cos_acos; auto)) as D. rewrite LC in D. rewrite <- D. unfold dirac_at. rewrite LC. apply rsum_ext. intros n Hn.
  rewrite cos_acos by auto. unfold Rdiv. ring.
Qed.
Lemma response_self c N a z : length c = (N + 1)%nat -> unit_response c ->
  rsum (N + 1) (fun n => nth n c 0 * rsum (2 * n + 1) (fun k => sh_real n (Z.of_nat k - Z.of_nat n) a z * sh_real n (Z.of_nat k - Z.of_nat n) a z)) = 1.
Proof.
  intros LC U. rewrite (rsum_ext _ _ (fun n => nth n c 0 * rsum (2 * n + 1) (fun k => sh_real n (Z.of_nat k - Z.of_nat n) a (acos (cos z)) * sh_real n (Z.of_nat k - Z.of_nat n) a (acos (cos z))))).
  - rewrite response_legendre by (auto; apply acos_bound). rewrite unit_dir. unfold unit_response in U. rewrite LC in U. etransitivity; [|exact U]. apply rsum_ext. intros n Hn. rewrite legendre_one. ring.
  - intros n Hn. f_equal. apply rsum_ext. intros k Hk. rewrite (sh_real_wrap n _ a z). reflexivity.
Qed.
Theorem unit_gain p N azi zen W g (s : list R) c : pattern_weights p N = Ok (Some c) -> length c = (N + 1)%nat -> unit_response c ->
  length zen = length azi -> sh_beamformer_from_pattern p N azi zen = Ok (Some W) -> (g < length azi)%nat ->
  exists F Out, src_to_sh (row_mat s) [nth g azi 0] [nth g zen 0] N = Ok F /\ sh_beamform W F = Ok Out /\ nc Out = length s /\
    forall t, (t < length s)%nat -> ent Out g t = nth t s 0.
Proof.
  intros EP LC U HL E Hg. rewrite (pattern_named p N azi zen c EP) in E.
  destruct (beam_response c N azi zen W (nth g azi 0) (nth g zen 0) s LC HL E) as (F & Out & EF & EO & RO & CO & HO).
  exists F, Out. split; auto. split; auto. split; auto. intros t Ht. rewrite HO by auto. rewrite response_self by auto. ring.
Qed.
Theorem named_patterns p N : p = PHyper \/ p = PCardioid \/ p = PMaxRe ->
  exists c, pattern_weights p N = Ok (Some c) /\ length c = (N + 1)%nat /\ unit_response c.
Proof.
  intros [->|[->| ->]]; cbn [pattern_weights].
  - eexists. split; [reflexivity|]. split; [apply repeat_length|apply hyper_unit].
  - eexists. split; [reflexivity|]. split; [unfold cardioid_modal_weights; rewrite map_length, seq_length; auto|apply cardioid_unit].
  - apply maxre_unit.
Qed.
