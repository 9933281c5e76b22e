(** MAD and EPAD with exact decompositions; the cube at order 2. *)
From Verif Require Import Base BaseFacts M_utils M_sph0 M_sig M_process M_sph M_grids M_decoder M_decoder2 S_utils S_sph S_grids S_decoder S_decoder2 S_svd
  P_sph1 P_sph2 P_sph3 P_sph4 P_sph5 P_sph6 P_sph7 P_sph8 P_sph9 P_sph10 P_sph11 P_sph12 P_sph13 X_sph P_grids3 P_dec1 P_dec6 P_dec7 P_dec8 P_dec9 X_dec2 P_svd1 P_svd2 P_svd3.
Open Scope R_scope.

Lemma product_meq D D' F LS LS' : product D F LS -> product D' F LS' -> meq D D' -> meq LS LS'.
Proof.
  intros (A1 & A2 & A3 & A4) (B1 & B2 & B3 & B4) (M1 & M2 & M3). split; [congruence|]. split; [congruence|]. intros i j Hi Hj. rewrite A2 in Hi. rewrite A3 in Hj.
  rewrite A4 by assumption. rewrite B4 by (congruence || assumption). rewrite <- M2. apply rsum_ext. intros k Hk. rewrite M3 by assumption. reflexivity.
Qed.
Theorem f_mad_determined : forall lstsq3 pinv pinv' F s N, exact_pinv pinv -> exact_pinv pinv' ->
  (forall p, In p (h_points (s_hull s)) -> p <> (0, 0, 0)) -> ((N + 1) ^ 2 <= nr F)%nat ->
  exists LS LS', mad lstsq3 pinv F s (Some N) = Ok (Some LS) /\ mad lstsq3 pinv' F s (Some N) = Ok (Some LS') /\ meq LS LS'.
Proof.
  intros lstsq3 pinv pinv' F s N E1 E2 NZ RF. destruct (ls_matrix_ok N (s_hull s) NZ) as (Y & EY & _).
  destruct (mad_ok lstsq3 pinv F s N Y EY (E1 Y) RF) as (LS & A & P). destruct (mad_ok lstsq3 pinv' F s N Y EY (E2 Y) RF) as (LS' & A' & P').
  exists LS, LS'. split; [exact A|]. split; [exact A'|]. apply (product_meq _ _ _ _ _ P P'). destruct (penrose_unique Y _ _ (E1 Y) (E2 Y)) as (M1 & M2 & M3).
  split; [exact M2|]. split; [exact M1|]. intros i j Hi Hj. cbn [mad_D mscal mtr nr nc ent] in *. rewrite M3 by assumption. reflexivity.
Qed.
Lemma epad_D_uev N Y U VH : nr Y <> O -> nc Y = ((N + 1) ^ 2)%nat -> exists c, c <> 0 /\ forall i j, ent (epad_D N (nr Y) U VH) i j = c * ent (uev Y U VH) i j.
Proof.
  intros R0 C. exists (sqrt (INR (nr Y) / INR ((N + 1) ^ 2)) * sqrt (4 * PI / INR (nr Y))). split.
  - pose proof (lt_0_INR (nr Y) ltac:(lia)). pose proof (INR_sq_pos N). pose proof PI_RGT_0. apply Rgt_not_eq, Rmult_lt_0_compat; apply sqrt_lt_R0, Rdiv_lt_0_compat; lra.
  - intros i j. cbn [epad_D uev ent]. rewrite C. ring.
Qed.
Theorem f_epad_determined : forall lstsq3 s N Y, ls_matrix N (s_hull s) = Ok (Some Y) -> (0 < length (h_points (s_hull s)))%nat ->
  (full_rank Y <-> forall svd svd' F, exact_svd svd -> exact_svd svd' -> ((N + 1) ^ 2 <= nr F)%nat ->
     exists LS LS', epad lstsq3 svd F s (Some N) = Ok (Some LS) /\ epad lstsq3 svd' F s (Some N) = Ok (Some LS') /\ meq LS LS').
Proof.
  intros lstsq3 s N Y EY L0. destruct (ls_matrix_dims _ _ _ EY) as [RY CY]. split.
  - intros FR svd svd' F E1 E2 RF. destruct (svd Y) as [[U sv] VH] eqn:H1. destruct (svd' Y) as [[U' sv'] VH'] eqn:H2. pose proof (E1 _ _ _ _ H1) as S1. pose proof (E2 _ _ _ _ H2) as S2.
    destruct (epad_ok lstsq3 svd F s N Y U sv VH EY H1 S1 RF) as (LS & A & P). destruct (epad_ok lstsq3 svd' F s N Y U' sv' VH' EY H2 S2 RF) as (LS' & A' & P').
    exists LS, LS'. split; [exact A|]. split; [exact A'|]. apply (product_meq _ _ _ _ _ P P'). destruct (uev_unique Y U sv VH U' sv' VH' S1 S2 FR) as (_ & _ & M).
    split; [reflexivity|]. split; [reflexivity|]. intros i j Hi Hj. cbn [epad_D nr nc ent] in *. cbn [uev nr nc ent] in M. rewrite RY, CY in M. rewrite M by assumption. reflexivity.
  - intros AG. apply Classical_Prop.NNPP. intros NF. destruct (svd_exists Y) as (U & sv & VH & S1). destruct (not_full_rank Y NF U sv VH S1) as (k & Hk & Z).
    destruct (uev_not_unique Y U sv VH k S1 Hk Z) as (U' & S2 & D). apply D.
    destruct (svd_extend _ _ _ _ S1) as (f & F1 & F2). destruct (svd_extend _ _ _ _ S2) as (f' & F1' & F2').
    set (K := ((N + 1) ^ 2)%nat) in *. destruct (AG f f' (meye K) F1 F1' (le_n K)) as (LS & LS' & A & A' & M).
    destruct (epad_ok lstsq3 f (meye K) s N Y U sv VH EY F2 S1 (le_n K)) as (LS1 & B & P). destruct (epad_ok lstsq3 f' (meye K) s N Y U' sv VH EY F2' S2 (le_n K)) as (LS2 & B' & P').
    rewrite A in B. injection B as <-. rewrite A' in B'. injection B' as <-.
    assert (V : forall U LS, product (epad_D N (length (h_points (s_hull s))) U VH) (first_rows K (meye K)) LS -> forall i j, (i < nr Y)%nat -> (j < nc Y)%nat -> ent LS i j = ent (epad_D N (nr Y) U VH) i j).
    { intros W L (_ & _ & _ & P4) i j Hi Hj. rewrite RY. rewrite P4; [|cbn [epad_D nr]; rewrite <- RY; exact Hi|change (j < K)%nat; rewrite <- CY; exact Hj].
      change (nc (epad_D N (length (h_points (s_hull s))) W VH)) with K. rewrite CY in Hj. fold K in Hj.
      rewrite (rsum_single K j _ Hj).
      - cbn [first_rows meye mdiag ent]. rewrite Nat.eqb_refl. ring.
      - intros q Hq NQ. cbn [first_rows meye mdiag ent]. destruct (Nat.eqb_spec q j); [contradiction|ring]. }
    destruct (epad_D_uev N Y U VH ltac:(lia) CY) as (c & C0 & HC). destruct (epad_D_uev N Y U' VH ltac:(lia) CY) as (c' & C0' & HC').
    split; [reflexivity|]. split; [reflexivity|]. cbn [uev nr nc]. intros i j Hi Hj. destruct M as (_ & _ & M).
    assert (X : ent (epad_D N (nr Y) U VH) i j = ent (epad_D N (nr Y) U' VH) i j).
    { rewrite <- (V U LS P i j Hi Hj), <- (V U' LS' P' i j Hi Hj). apply M; destruct P as (_ & P2 & P3 & _); [rewrite P2; cbn [epad_D nr]; rewrite <- RY; exact Hi|rewrite P3; change (j < K)%nat; rewrite <- CY; exact Hj]. }
    cbn [epad_D ent] in X. pose proof (lt_0_INR (nr Y) ltac:(lia)) as LP. pose proof (INR_sq_pos N) as KP. pose proof PI_RGT_0.
    apply Rmult_eq_reg_l in X; [|apply Rgt_not_eq, sqrt_lt_R0, Rdiv_lt_0_compat; lra]. apply Rmult_eq_reg_l in X; [|apply Rgt_not_eq, sqrt_lt_R0, Rdiv_lt_0_compat; lra].
    cbn [uev ent]. rewrite CY. exact X.
Qed.

(** * the cube at order 2 *)
Definition cube : list V3 := [(1, 1, 1); (1, -1, -1); (-1, 1, -1); (-1, -1, 1); (-1, -1, -1); (-1, 1, 1); (1, -1, 1); (1, 1, -1)].
Definition cube_hull : hull := Hull cube (map norm3 cube) 1 (0, 0, 0) [] [] [] [] [] [] None None.
Definition cube_setup : setup := Setup cube_hull None None (Some 1%nat).
Definition parity (l : nat) : R := if Nat.ltb l 4 then 1 else -1.
Lemma cube_nz : forall p, In p cube -> p <> (0, 0, 0).
Proof. intros p Hp E. unfold cube in Hp. cbn in Hp. repeat destruct Hp as [<-|Hp]; try (injection E; intros; lra). destruct Hp. Qed.
Definition cube_poly (p : V3 -> R) : Prop := forall q, rsum 8 (fun l => parity l * p (scal3 q (nth l cube (0, 0, 0)))) = 0.
Ltac cube_sum := intros q; unfold rsum, parity, cube; cbn [fold_left seq map fold_right nth Nat.ltb Nat.leb]; unfold scal3, vx, vy, vz; cbn [fst snd]; try field; try ring.
Lemma cube_Y n m : (n <= 2)%nat -> degree n m -> exists c p, (forall v, dot3 v v = 1 -> Yz n m v = c * p v) /\ cube_poly p.
Proof.
  intros Hn D. unfold degree in D. assert (C : n = 0%nat \/ n = 1%nat \/ n = 2%nat) by lia. destruct C as [-> | [-> | ->]].
  - assert (m = 0%Z) as -> by lia. exists (/ sqrt (4 * PI)), (fun _ => 1). split; [intros; rewrite Yz00; ring|cube_sum].
  - assert (C : (m = -1 \/ m = 0 \/ m = 1)%Z) by lia. destruct C as [-> | [-> | ->]].
    + eexists _, vy. split; [intros v _; apply (proj1 (Yz1 v))|cube_sum].
    + eexists _, vz. split; [intros v _; apply (proj1 (proj2 (Yz1 v)))|cube_sum].
    + eexists _, vx. split; [intros v _; apply (proj2 (proj2 (Yz1 v)))|cube_sum].
  - assert (C : (m = -2 \/ m = -1 \/ m = 0 \/ m = 1 \/ m = 2)%Z) by lia. destruct C as [-> | [-> | [-> | [-> | ->]]]].
    + exists (sqrt 2 * nk 2 2 * 3), (fun v => 2 * vx v * vy v). split; [|cube_sum]. intros v H. change (-2)%Z with (- Z.of_nat 2)%Z. rewrite Yz_neg. unfold ts, Hs, Q. cbn. field.
    + exists (sqrt 2 * nk 2 1 * 3), (fun v => vy v * vz v). split; [|cube_sum]. intros v H. change (-1)%Z with (- Z.of_nat 1)%Z. rewrite Yz_neg. unfold ts, Hs, Q. cbn. field.
    + exists (nk 2 0), (fun v => (3 * vz v * vz v - 1) / 2). split; [|cube_sum]. intros v H. rewrite Yz_0. unfold tc, Hc, Q. rewrite H. cbn. field. apply Rgt_not_eq, sqrt_lt_R0; lra.
    + exists (sqrt 2 * nk 2 1 * 3), (fun v => vx v * vz v). split; [|cube_sum]. intros v H. change 1%Z with (Z.of_nat 1)%Z. rewrite Yz_pos. unfold tc, Hc, Q. cbn. field.
    + exists (sqrt 2 * nk 2 2 * 3), (fun v => vx v * vx v - vy v * vy v). split; [|cube_sum]. intros v H. change 2%Z with (Z.of_nat 2)%Z. rewrite Yz_pos. unfold tc, Hc, Q. cbn. field.
Qed.
Lemma cube_unit l : (l < 8)%nat -> unit3 (nth l cube (0, 0, 0)) = scal3 (/ sqrt 3) (nth l cube (0, 0, 0)).
Proof.
  intros Hl. unfold unit3. replace (norm3 (nth l cube (0, 0, 0))) with (sqrt 3); [reflexivity|].
  unfold norm3, dot3, vx, vy, vz. do 8 (destruct l as [|l]; [cbn [nth cube fst snd]; f_equal; ring|]). lia.
Qed.
Lemma acn_split k : (k < 9)%nat -> exists n q, (n <= 2)%nat /\ (q < 2 * n + 1)%nat /\ k = (n * n + q)%nat.
Proof. intros H. destruct (Nat.lt_ge_cases k 1); [exists 0%nat, k; lia|]. destruct (Nat.lt_ge_cases k 4); [exists 1%nat, (k - 1)%nat; lia|]. exists 2%nat, (k - 4)%nat. lia. Qed.
Theorem cube_rank : exists Y, ls_matrix 2 cube_hull = Ok (Some Y) /\ ~ full_rank Y.
Proof.
  destruct (ls_matrix_ok 2 cube_hull cube_nz) as (Y & E & RY & CY & NY). destruct (dirs_ok_angles _ cube_nz) as (azi & zen & _ & A). cbn [h_points cube_hull] in NY, RY.
  change (length cube) with 8%nat in *. change ((2 + 1) ^ 2)%nat with 9%nat in CY.
  exists Y. split; [exact E|].
  assert (Z : forall k, (k < 9)%nat -> rsum 8 (fun l => parity l * ent Y l k) = 0).
  { intros k Hk. destruct (acn_split k Hk) as (n & q & Hn & Hq & ->). destruct (cube_Y n (Z.of_nat q - Z.of_nat n) Hn ltac:(unfold degree; lia)) as (c & p & HP & S0).
    rewrite (rsum_ext 8 _ (fun l => c * (parity l * p (scal3 (/ sqrt 3) (nth l cube (0, 0, 0)))))); [rewrite rsum_scal, S0; ring|].
    intros l Hl. rewrite (NY azi zen l n q A Hl Hn Hq). pose proof A as (_ & _ & A'). destruct (A' l Hl) as [Zn AM]. pose proof (aims_unit _ _ (unit_dir _ _) AM) as (_ & U & _).
    rewrite sh_real_Yz by (apply sin_nonneg; exact Zn). rewrite HP by apply unit_dir. rewrite U, cube_unit by exact Hl. ring. }
  intros [H|[X HX]].
  - apply svd_rank in H. lia.
  - cbn [mtr nr nc] in HX. rewrite RY, CY in HX.
    assert (P0 : parity 0 = 0).
    { rewrite <- (rsum_delta_l 8 0 parity) by lia. rewrite (rsum_ext 8 _ (fun b => rsum 9 (fun k => ent X 0 k * (parity b * ent Y b k)))) by (intros b Hb; rewrite <- (HX 0%nat b) by lia; unfold mprod; rewrite <- rsum_scal_r; apply rsum_ext; intros; cbn [mtr ent]; ring).
      rewrite rsum_swap. apply rsum_0. intros k Hk. rewrite rsum_scal, Z by exact Hk. ring. }
    unfold parity in P0. cbn in P0. lra.
Qed.
Theorem epad_refuted : exists s svd svd' F, exact_svd svd /\ exact_svd svd' /\
  h_points (s_hull s) = [(1, 1, 1); (1, -1, -1); (-1, 1, -1); (-1, -1, 1); (-1, -1, -1); (-1, 1, 1); (1, -1, 1); (1, 1, -1)] /\ nr F = 9%nat /\
  forall lstsq3, exists LS LS', epad lstsq3 svd F s (Some 2%nat) = Ok (Some LS) /\ epad lstsq3 svd' F s (Some 2%nat) = Ok (Some LS') /\ ~ meq LS LS'.
Proof.
  destruct cube_rank as (Y & EY & NF). destruct (svd_exists Y) as (U & sv & VH & S1). destruct (not_full_rank Y NF U sv VH S1) as (k & Hk & Z).
  destruct (uev_not_unique Y U sv VH k S1 Hk Z) as (U' & S2 & D). destruct (svd_extend _ _ _ _ S1) as (f & F1 & F2). destruct (svd_extend _ _ _ _ S2) as (f' & F1' & F2').
  exists cube_setup, f, f', (meye 9). split; [exact F1|]. split; [exact F1'|]. split; [reflexivity|]. split; [reflexivity|]. intros lstsq3.
  destruct (epad_ok lstsq3 f (meye 9) cube_setup 2 Y U sv VH EY F2 S1 ltac:(cbn; lia)) as (LS & B & P). destruct (epad_ok lstsq3 f' (meye 9) cube_setup 2 Y U' sv VH EY F2' S2 ltac:(cbn; lia)) as (LS' & B' & P').
  exists LS, LS'. split; [exact B|]. split; [exact B'|]. intros M. apply NF.
  destruct (ls_matrix_dims _ _ _ EY) as [RY CY]. exfalso. apply D. destruct M as (_ & _ & M).
  destruct P as (_ & P2 & P3 & P4). destruct P' as (_ & _ & _ & P4'). change ((2 + 1) ^ 2)%nat with 9%nat in *. change (length (h_points (s_hull cube_setup))) with 8%nat in *. change (length (h_points cube_hull)) with 8%nat in RY.
  split; [reflexivity|]. split; [reflexivity|]. cbn [uev nr nc]. intros i j Hi Hj. rewrite RY in Hi. rewrite CY in Hj. cbn [epad_D first_rows meye nr nc] in P2, P3, P4, P4'.
  assert (V : forall W L, (forall i j, (i < 8)%nat -> (j < 9)%nat -> ent L i j = rsum 9 (fun k => ent (epad_D 2 8 W VH) i k * ent (first_rows 9 (meye 9)) k j)) -> ent L i j = ent (epad_D 2 8 W VH) i j).
  { intros W L HL. rewrite HL by assumption. rewrite (rsum_single 9 j _ Hj).
    - cbn [first_rows meye mdiag ent]. rewrite Nat.eqb_refl. ring.
    - intros q Hq NQ. cbn [first_rows meye mdiag ent]. destruct (Nat.eqb_spec q j); [contradiction|ring]. }
  assert (X : ent (epad_D 2 8 U VH) i j = ent (epad_D 2 8 U' VH) i j).
  { rewrite <- (V U LS P4), <- (V U' LS' P4'). apply M; [rewrite P2; exact Hi|rewrite P3; exact Hj]. }
  cbn [epad_D ent] in X. pose proof PI_RGT_0. pose proof (lt_0_INR 8 ltac:(lia)). pose proof (INR_sq_pos 2).
  apply Rmult_eq_reg_l in X; [|apply Rgt_not_eq, sqrt_lt_R0, Rdiv_lt_0_compat; lra]. apply Rmult_eq_reg_l in X; [|apply Rgt_not_eq, sqrt_lt_R0, Rdiv_lt_0_compat; lra].
  cbn [uev ent]. rewrite RY, CY. exact X.
Qed.
