(** Least-squares transforms of noisy samples. *)
From Coq Require Import Lra Lia.
From Verif Require Import Base BaseFacts M_utils M_sig P_sig M_sph0 M_sph S_utils S_sph S_grids S_svd P_sph7 P_sph11 P_grids3 P_svd3 X_sph P_linalg S_order P_order X_order S_noise.
Open Scope R_scope.

Lemma normal_bound Y x e : (forall i, (i < nc Y)%nat -> rsum (nr Y) (fun q => ent Y q i * (act Y x q - e q)) = 0) -> sumsq (nr Y) (act Y x) <= sumsq (nr Y) e.
Proof.
  intros H. assert (E : rsum (nr Y) (fun q => act Y x q * (act Y x q - e q)) = 0).
  { transitivity (rsum (nc Y) (fun i => x i * rsum (nr Y) (fun q => ent Y q i * (act Y x q - e q)))).
    - rewrite (rsum_ext (nc Y) _ (fun i => rsum (nr Y) (fun q => ent Y q i * x i * (act Y x q - e q)))) by (intros i _; rewrite <- rsum_scal; apply rsum_ext; intros; ring).
      rewrite rsum_swap. apply rsum_ext. intros q _. rewrite rsum_scal_r. reflexivity.
    - apply rsum_0. intros i Hi. rewrite H by exact Hi. ring. }
  rewrite (rsum_ext _ _ (fun q => act Y x q * act Y x q + - (act Y x q * e q))) in E by (intros; ring). rewrite rsum_plus, rsum_opp in E.
  pose proof (rsum_cauchy_schwarz (nr Y) (act Y x) e) as C. unfold Rsqr in C. fold (sumsq (nr Y) (act Y x)) in *. fold (sumsq (nr Y) e) in C.
  pose proof (sumsq_pos (nr Y) (act Y x)). pose proof (sumsq_pos (nr Y) e). set (s := sumsq (nr Y) (act Y x)) in *. set (c := rsum (nr Y) (fun q => act Y x q * e q)) in *.
  assert (c = s) by lra. subst c. destruct (Req_dec s 0); [lra|]. apply Rmult_le_reg_l with s; nra.
Qed.
Lemma col_sumsq A j : col_energy A j = sumsq (nr A) (fun i => ent A i j).
Proof. apply rsum_ext. intros; ring. Qed.
Lemma f_noise lstsq N azi zen w b F f E g : lstsq_contract lstsq -> exact_for sh_real (2 * N) azi zen w -> (forall x, In x w -> 0 < x <= b) -> nr F = ((N + 1) ^ 2)%nat ->
  inverse_sht F azi zen None None = Ok f -> sum_of f E g ->
  exists X, sht_lstsq lstsq g N azi zen None = Ok X /\ nr X = nr F /\ nc X = nc F /\
    forall j, (j < nc F)%nat -> rsum (nr F) (fun i => (ent X i j - ent F i j) ^ 2) <= b * col_energy E j.
Proof.
  intros HL EX HW HF Ef (S1 & S2 & S3 & S4 & S5). pose proof EX as (L1 & L2 & Z & SW & _). destruct (gram_grid N azi zen w EX) as (Y & EY & RY & CY & O).
  destruct (least_pos w) as (a & A0 & HA); [intros x Hx; apply HW; exact Hx|].
  assert (W : forall q, (q < nr Y)%nat -> a <= nth q w 0 <= b) by (intros q Hq; assert (In (nth q w 0) w) by (apply nth_In; congruence); split; [apply HA; assumption|apply HW; assumption]).
  assert (B0 : 0 < b). { destruct w as [|x w']; [cbn in SW; pose proof PI_RGT_0; lra|]. destruct (HW x (or_introl eq_refl)). lra. }
  rewrite (inverse_sht_infers F N) in Ef by auto. destruct (inverse_sht_ok F N azi zen Y EY CY ltac:(lia)) as (f' & Ef' & Rf & Cf & Hf). rewrite Ef in Ef'. injection Ef' as <-.
  unfold sht_lstsq. rewrite EY. cbn [bind]. destruct (HL Y g) as [H _]. destruct (H ltac:(congruence)) as (X & EXX & RX & CX & NX). exists X. split; [exact EXX|]. split; [congruence|]. split; [congruence|].
  intros j Hj. set (d := fun i => ent X i j - ent F i j).
  assert (NB : sumsq (nr Y) (act Y d) <= sumsq (nr Y) (fun q => ent E q j)).
  { apply normal_bound. intros i Hi. rewrite <- (NX i j Hi) by congruence. apply rsum_ext. intros q Hq. f_equal. rewrite S5 by congruence. rewrite Hf. unfold act, d.
    rewrite <- CY. rewrite (rsum_ext _ (fun j0 => ent Y q j0 * (ent X j0 j - ent F j0 j)) (fun k => ent Y q k * ent X k j - ent Y q k * ent F k j)) by (intros; ring). rewrite rsum_minus. ring. }
  pose proof (frame Y w a b O W d) as (_ & FR). rewrite col_sumsq. replace (nr E) with (nr Y) by congruence. rewrite HF, <- CY.
  rewrite (rsum_ext _ _ (fun i => d i * d i)) by (intros; unfold d; ring). fold (sumsq (nc Y) d).
  eapply Rle_trans; [exact FR|]. apply Rmult_le_compat_l; [lra|exact NB].
Qed.
Lemma f_noise_size lstsq N azi zen w b g : lstsq_contract lstsq -> exact_for sh_real (2 * N) azi zen w -> (forall x, In x w -> 0 < x <= b) -> nr g = length azi ->
  exists X, sht_lstsq lstsq g N azi zen None = Ok X /\ nr X = ((N + 1) ^ 2)%nat /\ nc X = nc g /\ forall j, (j < nc g)%nat -> col_energy X j <= b * col_energy g j.
Proof.
  intros HL EX HW HG. pose proof EX as (L1 & L2 & Z & SW & _). destruct (gram_grid N azi zen w EX) as (Y & EY & RY & CY & O).
  destruct (least_pos w) as (a & A0 & HA); [intros x Hx; apply HW; exact Hx|].
  assert (W : forall q, (q < nr Y)%nat -> a <= nth q w 0 <= b) by (intros q Hq; assert (In (nth q w 0) w) by (apply nth_In; congruence); split; [apply HA; assumption|apply HW; assumption]).
  assert (B0 : 0 < b). { destruct w as [|x w']; [cbn in SW; pose proof PI_RGT_0; lra|]. destruct (HW x (or_introl eq_refl)). lra. }
  unfold sht_lstsq. rewrite EY. cbn [bind]. destruct (HL Y g) as [H _]. destruct (H ltac:(congruence)) as (X & EXX & RX & CX & NX). exists X. split; [exact EXX|]. split; [congruence|]. split; [congruence|].
  intros j Hj. pose proof (normal_bound Y (fun k => ent X k j) (fun q => ent g q j) (fun i Hi => NX i j Hi Hj)) as NB.
  pose proof (frame Y w a b O W (fun k => ent X k j)) as (_ & FR). rewrite !col_sumsq. rewrite RX, HG, <- RY. eapply Rle_trans; [exact FR|]. apply Rmult_le_compat_l; [lra|exact NB].
Qed.
(** on designs least squares is the transform with equal weights *)
Lemma f_noise_designs lstsq N azi zen g : lstsq_contract lstsq -> exact_for sh_real (2 * N) azi zen (equal_weights (length azi)) -> nr g = length azi ->
  exists X X', sht_lstsq lstsq g N azi zen None = Ok X /\ sht g N azi zen None None = Ok X' /\ meq X X'.
Proof.
  intros HL EX HG. pose proof EX as (L1 & _ & _ & SW & _). destruct (gram_grid N azi zen _ EX) as (Y & EY & RY & CY & O).
  assert (Q : (0 < length azi)%nat). { destruct (length azi) as [|q] eqn:Eq; [|lia]. cbn in SW. pose proof PI_RGT_0. lra. }
  set (v := 4 * PI / INR (length azi)). assert (V : 0 < v) by (apply Rdiv_lt_0_compat; [pose proof PI_RGT_0; lra|apply lt_0_INR; exact Q]).
  unfold sht_lstsq, sht. rewrite EY. cbn [bind]. destruct (HL Y g) as [H _]. destruct (H ltac:(congruence)) as (X & EXX & RX & CX & NX).
  exists X. rewrite matmul_ok by (cbn [mtr mscal nc nr]; congruence). eexists. split; [exact EXX|]. split; [reflexivity|]. unfold meq. cbn [mtr mscal nc nr ent]. split; [congruence|]. split; [congruence|].
  intros i j Hi Hj. rewrite RX in Hi. rewrite CX in Hj. specialize (NX i j Hi Hj). rewrite RY in *. fold v.
  rewrite (rsum_ext _ _ (fun q => ent Y q i * rsum (nc Y) (fun k => ent Y q k * ent X k j) + - (ent Y q i * ent g q j))) in NX by (intros; ring). rewrite rsum_plus, rsum_opp in NX.
  assert (D : rsum (length azi) (fun q => ent Y q i * rsum (nc Y) (fun k => ent Y q k * ent X k j)) = / v * ent X i j).
  { rewrite (rsum_ext _ _ (fun q => rsum (nc Y) (fun k => ent Y q i * ent Y q k * ent X k j))) by (intros q _; rewrite <- rsum_scal; apply rsum_ext; intros; ring). rewrite rsum_swap.
    rewrite (rsum_ext _ _ (fun k => delta i k * (/ v * ent X k j))); [apply (rsum_delta_l (nc Y) i (fun k => / v * ent X k j) Hi)|]. intros k Hk. rewrite rsum_scal_r. rewrite <- (O i k Hi Hk), RY.
    rewrite (rsum_ext _ (fun q => nth q _ 0 * _) (fun q => v * (ent Y q i * ent Y q k))) by (intros q Hq; unfold equal_weights; rewrite nth_repeat_in by exact Hq; fold v; ring). rewrite rsum_scal. field. lra. }
  rewrite D in NX. rewrite (rsum_ext _ (fun q => v * ent Y q i * ent g q j) (fun q => v * (ent Y q i * ent g q j))) by (intros; ring). rewrite rsum_scal. replace (rsum (length azi) (fun q => ent Y q i * ent g q j)) with (/ v * ent X i j) by lra. field. lra.
Qed.
Lemma ex_noise : (exists lstsq, lstsq_contract lstsq) /\ exact_for sh_real (2 * 1) octa_azi octa_zen (equal_weights (length octa_azi)) /\ (forall x, In x (equal_weights (length octa_azi)) -> 0 < x <= 4 * PI / 6) /\
  exists F f E g, nr F = ((1 + 1) ^ 2)%nat /\ nc F = 1%nat /\ inverse_sht F octa_azi octa_zen None None = Ok f /\ sum_of f E g /\ col_energy E 0 = 1.
Proof.
  pose proof PI_RGT_0. assert (G : exact_for sh_real (2 * 1) octa_azi octa_zen (equal_weights (length octa_azi))) by exact octa_grid.
  split; [exact lstsq_exists|]. split; [exact G|]. split.
  - intros x Hx. apply repeat_spec in Hx. subst x. change (length octa_azi) with 6%nat. replace (INR 6) with 6 by (simpl; lra). lra.
  - destruct (gram_grid 1 octa_azi octa_zen _ G) as (Y & EY & RY & CY & _). set (F := Mat ((1 + 1) ^ 2) 1 (fun _ _ => 1)).
    destruct (inverse_sht_ok F 1 octa_azi octa_zen Y EY CY ltac:(cbn; lia)) as (f & Ef & Rf & Cf & Hf).
    set (E := Mat (nr f) (nc f) (fun i _ => delta 0 i)). exists F, f, E, (Mat (nr f) (nc f) (fun i j => ent f i j + ent E i j)).
    split; [reflexivity|]. split; [reflexivity|]. split; [rewrite (inverse_sht_infers F 1) by reflexivity; exact Ef|]. split; [repeat split|].
    unfold col_energy. cbn [E nr ent]. rewrite Rf, RY. change (length octa_azi) with 6%nat. rewrite (rsum_ext 6 _ (fun i => delta 0 i * delta 0 i)) by (intros; ring). rewrite rsum_delta_l by lia. reflexivity.
Qed.
