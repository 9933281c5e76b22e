(** Transforms on quadrature grids, axisymmetric patterns, filter banks. *)
From Verif Require Import Base BaseFacts M_utils S_utils P_utils M_sig P_sig M_sph0 M_sph S_linalg S_sph
  P_sph1 P_sph2 P_sph3 P_sph4 P_sph5 P_sph6 P_sph7 P_sph8 P_sph9 P_sph10.
Open Scope R_scope.

Lemma lsum_rsum (l : list R) : lsum l = rsum (length l) (fun i => nth i l 0).
Proof. induction l as [|x l IH]; [reflexivity|]. simpl length. rewrite rsum_shift. simpl. rewrite IH. reflexivity. Qed.

(** ** orthonormality on exact grids *)

Lemma exact_grid_quad t azi zen w : exact_for sh_real t azi zen w ->
  exact_quad t (length azi) (fun j => nth j w 0) (fun j => sph2cart (nth j azi 0) (nth j zen 0) 1).
Proof.
  intros (L1 & L2 & Z & S & H). split; [intros; apply unit_dir|]. split.
  - rewrite <- S, lsum_rsum, L2. reflexivity.
  - intros l m Hl Hm. unfold quad. etransitivity; [|exact (H l m Hl Hm)]. apply rsum_ext. intros j Hj. rewrite sh_real_Yz; auto. apply zeniths_nth; auto; lia.
Qed.
Theorem gram_grid N azi zen w : exact_for sh_real (2 * N) azi zen w ->
  exists Y, sh_matrix N azi zen = Ok Y /\ nr Y = length azi /\ nc Y = ((N + 1) ^ 2)%nat /\ orthonormal_on Y w.
Proof.
  intros H. pose proof (exact_grid_quad _ _ _ _ H) as HQ. destruct H as (L1 & L2 & Z & S & _).
  destruct (sh_matrix_ok N azi zen L1) as (Y & E & A & B & C). exists Y. split; auto. split; auto. split; auto.
  intros a b Ha Hb. rewrite B in *. destruct (acn_decomp N a Ha) as (n & i & Hn & Hi & ->). destruct (acn_decomp N b Hb) as (n' & i' & Hn' & Hi' & ->).
  pose proof (gram_exact _ _ _ _ HQ n (Z.of_nat i - Z.of_nat n) n' (Z.of_nat i' - Z.of_nat n') ltac:(lia) ltac:(lia) ltac:(lia)) as G.
  transitivity (kd n (Z.of_nat i - Z.of_nat n) n' (Z.of_nat i' - Z.of_nat n')).
  - rewrite <- G. unfold gram, quad. rewrite A. apply rsum_ext. intros j Hj. rewrite !C, !sh_real_Yz by (auto; apply zeniths_nth; auto; lia). reflexivity.
  - unfold kd, delta, zdelta. destruct (Nat.eqb_spec n n') as [->|D].
    + destruct (Z.eqb_spec (Z.of_nat i - Z.of_nat n') (Z.of_nat i' - Z.of_nat n')); destruct (Nat.eqb_spec (n' * n' + i) (n' * n' + i')); auto; lia.
    + destruct (Nat.eqb_spec (n * n + i) (n' * n' + i')) as [E'|]; auto. apply acn_uniq in E'; auto. lia.
Qed.

(** ** transforms *)
Lemma sht_weights_ok f N azi zen w Y : sh_matrix N azi zen = Ok Y -> length w = nr f -> nr Y = nr f ->
  exists F, sht f N azi zen (Some w) None = Ok F /\ nr F = nc Y /\ nc F = nc f /\
    forall i j, ent F i j = rsum (nr f) (fun q => ent Y q i * (nth q w 0 * ent f q j)).
Proof.
  intros EY L R. unfold sht. rewrite EY. cbn [bind]. rewrite (matmul_ok (mdiag _ _) f) by auto. cbn [bind nc mdiag].
  rewrite matmul_ok by (cbn [nc mtr nr mdiag]; congruence). eexists. split; [reflexivity|]. cbn [nr nc mtr mdiag ent].
  split; auto. split; auto. intros i j. rewrite R. apply rsum_ext. intros q Hq. f_equal. rewrite L.
  rewrite (rsum_single (nr f) q); auto.
  - rewrite Nat.eqb_refl. reflexivity.
  - intros k _ D. destruct (Nat.eqb_spec q k); [congruence|]. ring.
Qed.
Lemma sht_default f N azi zen Y : sh_matrix N azi zen = Ok Y -> nr Y = nr f ->
  exists F, sht f N azi zen None None = Ok F /\ nr F = nc Y /\ nc F = nc f /\
    forall i j, ent F i j = rsum (nr f) (fun q => ent Y q i * (4 * PI / INR (nr f) * ent f q j)).
Proof.
  intros EY R. unfold sht. rewrite EY. cbn [bind]. rewrite matmul_ok by (cbn [nc mtr nr mscal]; congruence). eexists. split; [reflexivity|].
  cbn [nr nc mtr mscal ent]. split; auto. split; auto. intros i j. rewrite R. apply rsum_ext. intros; ring.
Qed.
Lemma inverse_sht_ok F N azi zen Y : sh_matrix N azi zen = Ok Y -> nc Y = ((N + 1) ^ 2)%nat -> ((N + 1) ^ 2 <= nr F)%nat ->
  exists f, inverse_sht F azi zen (Some N) None = Ok f /\ nr f = nr Y /\ nc f = nc F /\
    forall i j, ent f i j = rsum ((N + 1) ^ 2) (fun k => ent Y i k * ent F k j).
Proof.
  intros EY C H. unfold inverse_sht. rewrite EY. cbn [bind].
  assert (E : matmul Y (first_rows ((N + 1) ^ 2) F) = Ok (Mat (nr Y) (nc F) (fun i j => rsum (nc Y) (fun k => ent Y i k * ent F k j)))).
  { rewrite matmul_ok; [reflexivity|]. cbn [first_rows nr]. rewrite Nat.min_l; auto. }
  rewrite E. eexists. split; [reflexivity|]. cbn [nr nc ent]. split; auto. split; auto. intros. rewrite C. reflexivity.
Qed.
Lemma inverse_sht_infers F N azi zen : nr F = ((N + 1) ^ 2)%nat ->
  inverse_sht F azi zen None None = inverse_sht F azi zen (Some N) None.
Proof.
  intros H. unfold inverse_sht. pose proof (sq_ge1 N). destruct (nr F) as [|K] eqn:E; [lia|]. rewrite H, order_of_sq, Nat2Z.id. reflexivity.
Qed.
Lemma orthonormal_recovers (Y F G f : mat) (w : list R) K Qn : nc Y = K -> nr F = K -> nr G = K -> nc G = nc F -> 
  (forall a b, (a < K)%nat -> (b < K)%nat -> rsum Qn (fun j => nth j w 0 * (ent Y j a * ent Y j b)) = delta a b) ->
  (forall i j, ent f i j = rsum K (fun k => ent Y i k * ent F k j)) ->
  (forall i j, ent G i j = rsum Qn (fun q => ent Y q i * (nth q w 0 * ent f q j))) -> meq G F.
Proof.
  intros HY HF HG HC HO Hf HGe. split; [congruence|]. split; [auto|]. intros i j Hi Hj. rewrite HG in Hi. rewrite HGe.
  rewrite (rsum_ext Qn _ (fun q => rsum K (fun k => nth q w 0 * (ent Y q i * ent Y q k) * ent F k j))).
  - rewrite rsum_swap. rewrite (rsum_ext K _ (fun k => delta i k * ent F k j)).
    + rewrite rsum_delta_l by auto. reflexivity.
    + intros k Hk. rewrite rsum_scal_r, HO by auto. reflexivity.
  - intros q Hq. rewrite Hf, <- !rsum_scal. apply rsum_ext. intros; ring.
Qed.

Theorem sht_inverts N azi zen w Y F : sh_matrix N azi zen = Ok Y -> nr Y = length azi -> nc Y = ((N + 1) ^ 2)%nat ->
  length w = length azi -> orthonormal_on Y w -> nr F = ((N + 1) ^ 2)%nat ->
  exists f F', inverse_sht F azi zen None None = Ok f /\ sht f N azi zen (Some w) None = Ok F' /\ meq F' F.
Proof.
  intros EY R C L HO HF. rewrite (inverse_sht_infers F N) by auto.
  destruct (inverse_sht_ok F N azi zen Y EY C ltac:(lia)) as (f & Ef & Rf & Cf & Hf).
  destruct (sht_weights_ok f N azi zen w Y EY ltac:(lia) ltac:(lia)) as (F' & EF & RF & CF & HFe).
  exists f, F'. split; auto. split; auto.
  apply (orthonormal_recovers Y F F' f w ((N + 1) ^ 2) (nr f)); auto; try congruence.
  intros a b Ha Hb. rewrite Rf. apply HO; congruence.
Qed.
Lemma nth_equal_weights q Qn : (q < Qn)%nat -> nth q (equal_weights Qn) 0 = 4 * PI / INR Qn.
Proof. intros H. unfold equal_weights. rewrite (nth_indep _ 0 (4 * PI / INR Qn)) by (rewrite repeat_length; auto). apply nth_repeat. Qed.
Lemma lsum_equal_weights Qn : (0 < Qn)%nat -> lsum (equal_weights Qn) = 4 * PI.
Proof.
  intros H. rewrite lsum_rsum. unfold equal_weights at 1. rewrite repeat_length.
  rewrite (rsum_ext Qn _ (fun _ => 4 * PI / INR Qn)) by (intros; apply nth_equal_weights; auto). rewrite rsum_const. field.
  apply not_0_INR. lia.
Qed.
Lemma sht_default_is_equal f N azi zen Y : sh_matrix N azi zen = Ok Y -> nr Y = nr f -> nr f = length azi ->
  exists F F', sht f N azi zen None None = Ok F /\ sht f N azi zen (Some (equal_weights (length azi))) None = Ok F' /\ meq F F'.
Proof.
  intros EY R L. destruct (sht_default f N azi zen Y EY R) as (F & E1 & R1 & C1 & H1).
  destruct (sht_weights_ok f N azi zen (equal_weights (length azi)) Y EY) as (F' & E2 & R2 & C2 & H2); auto.
  { unfold equal_weights. rewrite repeat_length. auto. }
  exists F, F'. split; auto. split; auto. split; [congruence|]. split; [congruence|]. intros i j _ _. rewrite H1, H2.
  apply rsum_ext. intros q Hq. rewrite nth_equal_weights by lia. rewrite L. reflexivity.
Qed.
Theorem sht_inverts_default N azi zen Y F : sh_matrix N azi zen = Ok Y -> nr Y = length azi -> nc Y = ((N + 1) ^ 2)%nat ->
  orthonormal_on Y (equal_weights (length azi)) -> nr F = ((N + 1) ^ 2)%nat ->
  exists f F', inverse_sht F azi zen None None = Ok f /\ sht f N azi zen None None = Ok F' /\ meq F' F.
Proof.
  intros EY R C HO HF. rewrite (inverse_sht_infers F N) by auto.
  destruct (inverse_sht_ok F N azi zen Y EY C ltac:(lia)) as (f & Ef & Rf & Cf & Hf).
  destruct (sht_default_is_equal f N azi zen Y EY ltac:(lia) ltac:(lia)) as (G & G' & E1 & E2 & M).
  exists f, G. split; auto. split; auto. apply meq_trans with G'; auto.
  destruct (sht_weights_ok f N azi zen (equal_weights (length azi)) Y EY) as (F' & EF & RF & CF & HFe); [unfold equal_weights; rewrite repeat_length; lia|lia|].
  rewrite E2 in EF. injection EF as <-.
  apply (orthonormal_recovers Y F G' f (equal_weights (length azi)) ((N + 1) ^ 2) (nr f)); auto; try congruence.
  intros a b Ha Hb. rewrite Rf. apply HO; congruence.
Qed.
Lemma rsum_lin2 n (d f g : nat -> R) a b : rsum n (fun k => d k * (a * f k + b * g k)) = a * rsum n (fun k => d k * f k) + b * rsum n (fun k => d k * g k).
Proof. rewrite <- (rsum_scal n a), <- (rsum_scal n b), <- rsum_plus. apply rsum_ext. intros; ring. Qed.
Lemma sht_linear f g N azi zen w a b Ff Fg : nr f = nr g -> nc f = nc g ->
  sht f N azi zen w None = Ok Ff -> sht g N azi zen w None = Ok Fg ->
  exists F, sht (Mat (nr f) (nc f) (fun i j => a * ent f i j + b * ent g i j)) N azi zen w None = Ok F /\
    nr F = nr Ff /\ nc F = nc Ff /\ forall i j, ent F i j = a * ent Ff i j + b * ent Fg i j.
Proof.
  intros HR HC. unfold sht. destruct (sh_matrix N azi zen) as [Y|]; [|discriminate]. cbn [bind]. destruct w as [w|].
  - unfold matmul. cbn [nc nr mdiag]. rewrite <- HR. destruct (Nat.eqb (length w) (nr f)); [|discriminate]. cbn [bind].
    cbn [nc nr mtr mdiag]. destruct (Nat.eqb (nr Y) (length w)); [|discriminate]. intros E1 E2.
    injection E1 as <-. injection E2 as <-. eexists. split; [reflexivity|]. cbn [nr nc ent]. split; auto. split; auto. intros i j.
    cbn [mtr ent]. rewrite <- (rsum_scal _ a), <- (rsum_scal _ b), <- rsum_plus. apply rsum_ext. intros q _.
    rewrite (rsum_lin2 _ (fun k => if Nat.eqb q k then nth q w 0 else 0) (fun k => ent f k j) (fun k => ent g k j) a b). ring.
  - unfold matmul. cbn [nc nr mtr mscal ent]. rewrite <- HR. destruct (Nat.eqb (nr Y) (nr f)); [|discriminate]. intros E1 E2.
    injection E1 as <-. injection E2 as <-. eexists. split; [reflexivity|]. cbn [nr nc ent]. split; auto. split; auto. intros i j.
    rewrite <- !rsum_scal, <- rsum_plus. apply rsum_ext. intros q _. ring.
Qed.
Lemma inverse_sht_surplus F G N azi zen : length zen = length azi -> ((N + 1) ^ 2 <= nr F)%nat -> ((N + 1) ^ 2 <= nr G)%nat -> nc F = nc G ->
  (forall i j, (i < (N + 1) ^ 2)%nat -> (j < nc F)%nat -> ent F i j = ent G i j) ->
  exists f g, inverse_sht F azi zen (Some N) None = Ok f /\ inverse_sht G azi zen (Some N) None = Ok g /\ meq f g.
Proof.
  intros L H1 H2 HC HE. destruct (sh_matrix_ok N azi zen L) as (Y & EY & A & B & _).
  destruct (inverse_sht_ok F N azi zen Y EY B H1) as (f & E1 & R1 & C1 & Hf).
  destruct (inverse_sht_ok G N azi zen Y EY B H2) as (g & E2 & R2 & C2 & Hg).
  exists f, g. split; auto. split; auto. split; [congruence|]. split; [congruence|]. intros i j Hi Hj. rewrite Hf, Hg.
  apply rsum_ext. intros k Hk. rewrite HE; auto. congruence.
Qed.
Lemma inverse_sht_too_few F N azi zen : length zen = length azi -> (nr F < (N + 1) ^ 2)%nat -> inverse_sht F azi zen (Some N) None = Err ValueError.
Proof.
  intros L H. destruct (sh_matrix_ok N azi zen L) as (Y & EY & A & B & _). unfold inverse_sht. rewrite EY. cbn [bind].
  unfold matmul. cbn [first_rows nr]. rewrite B, Nat.min_r by lia. destruct (Nat.eqb_spec ((N + 1) ^ 2) (nr F)); [lia|]. reflexivity.
Qed.
(** least squares *)
Theorem sht_lstsq_recovers lstsq N azi zen Y F (Z : nat -> nat -> R) : lstsq_contract lstsq ->
  sh_matrix N azi zen = Ok Y -> nc Y = ((N + 1) ^ 2)%nat -> nr F = ((N + 1) ^ 2)%nat ->
  (forall a b, (a < nc Y)%nat -> (b < nc Y)%nat -> rsum (nr Y) (fun q => Z a q * ent Y q b) = delta a b) ->
  exists f F', inverse_sht F azi zen None None = Ok f /\ sht_lstsq lstsq f N azi zen None = Ok F' /\ meq F' F.
Proof.
  intros HL EY C HF HZ. rewrite (inverse_sht_infers F N) by auto.
  destruct (inverse_sht_ok F N azi zen Y EY C ltac:(lia)) as (f & Ef & Rf & Cf & Hf).
  exists f. unfold sht_lstsq. rewrite EY. cbn [bind]. destruct (HL Y f) as [H _]. destruct (H ltac:(congruence)) as (X & EX & RX & CX & NX).
  exists X. split; auto. split; auto. split; [congruence|]. split; [congruence|]. intros i j Hi Hj. rewrite CX in Hj.
  set (K := nc Y) in *. set (Qn := nr Y) in *.
  set (e := fun k => ent X k j - ent F k j).
  assert (AE : forall q, rsum K (fun k => ent Y q k * ent X k j) - ent f q j = rsum K (fun k => ent Y q k * e k)).
  { intros q. rewrite Hf, <- C, <- rsum_minus. apply rsum_ext. intros; unfold e; ring. }
  assert (NE : rsum Qn (fun q => rsum K (fun k => ent Y q k * e k) * rsum K (fun k => ent Y q k * e k)) = 0).
  { transitivity (rsum K (fun i => e i * rsum Qn (fun q => ent Y q i * (rsum K (fun k => ent Y q k * ent X k j) - ent f q j)))).
    - rewrite (rsum_ext Qn _ (fun q => rsum K (fun i0 => e i0 * (ent Y q i0 * rsum K (fun k => ent Y q k * e k))))).
      + rewrite rsum_swap. apply rsum_ext. intros a _. rewrite rsum_scal. f_equal. apply rsum_ext. intros q _. rewrite AE. reflexivity.
      + intros q _. rewrite <- rsum_scal_r. apply rsum_ext. intros; ring.
    - apply rsum_0. intros a Ha. rewrite NX by auto. ring. }
  assert (NZ : forall q, (q < Qn)%nat -> rsum K (fun k => ent Y q k * e k) = 0).
  { intros q Hq. assert (X0 := rsum_nonneg_0 Qn _ (fun q _ => Rle_0_sqr (rsum K (fun k => ent Y q k * e k))) NE q Hq).
    cbv beta in X0. apply Rsqr_0_uniq. exact X0. }
  assert (E0 : e i = 0).
  { rewrite RX in Hi. rewrite <- (rsum_delta_l K i e) by auto.
    rewrite (rsum_ext K _ (fun k => rsum Qn (fun q => Z i q * (ent Y q k * e k)))).
    - rewrite rsum_swap. apply rsum_0. intros q Hq. rewrite rsum_scal, NZ by auto. ring.
    - intros k Hk. rewrite <- HZ by auto. rewrite <- rsum_scal_r. apply rsum_ext. intros; ring. }
  unfold e in E0. lra.
Qed.
