(** sh_mvdr and sh_lcmv (helpers for C38 and C39). *)
From Coq Require Import Lra Lia.
From Verif Require Import Base BaseFacts M_utils M_sig M_sph0 M_sph M_parsa S_linalg S_sph S_parsa P_linalg P_sph7 P_sph8 P_sph9 P_parsa1.
Open Scope R_scope.

Lemma sh_real_wrap n m azi zen : sh_real n m azi zen = sh_real n m azi (acos (cos zen)).
Proof. unfold sh_real, sph_harm. rewrite cos_acos by apply COS_bound. reflexivity. Qed.
Lemma sh_00 azi zen : sh_real 0 0 azi zen = / sqrt (4 * PI).
Proof.
  rewrite sh_real_wrap, sh_real_Yz by (apply sin_nonneg, acos_bound). apply Yz00.
Qed.
Lemma sh_00_pos azi zen : 0 < sh_real 0 0 azi zen.
Proof. rewrite sh_00. apply Rinv_0_lt_compat, sqrt_lt_R0. pose proof PI_RGT_0. lra. Qed.

(** the response of weights in a direction, as a product with a steering vector *)
Lemma field_steer N azi zen Y g (l : list R) : length zen = length azi -> sh_matrix N azi zen = Ok Y -> (g < length azi)%nat ->
  field_value sh_real N l (nth g azi 0) (nth g zen 0) = rsum ((N + 1) ^ 2) (fun j => nth j l 0 * ent Y g j).
Proof.
  intros HL E Hg. destruct (sh_matrix_ok N azi zen HL) as (Y' & E' & _ & _ & H). rewrite E in E'. injection E' as <-.
  rewrite sq2, rsum_acn. unfold field_value. apply rsum_ext. intros n Hn. apply rsum_ext. intros k Hk.
  rewrite H by (auto; lia). reflexivity.
Qed.
Lemma nth_mrow A i j : (j < nc A)%nat -> nth j (mrow A i) 0 = ent A i j.
Proof. intros H. unfold mrow. rewrite nth_map_seq; auto. Qed.
Lemma length_mrow A i : length (mrow A i) = nc A.
Proof. unfold mrow. rewrite map_length, seq_length. auto. Qed.
Lemma matmul_inv a b c : matmul a b = Ok c -> nc a = nr b /\ nr c = nr a /\ nc c = nc b /\
  forall i j, ent c i j = rsum (nc a) (fun k => ent a i k * ent b k j).
Proof. unfold matmul. destruct (Nat.eqb_spec (nc a) (nr b)); intros E; [|discriminate]. injection E as <-. cbn [nr nc ent]. auto. Qed.
Lemma inv_ok inv A X : inv_contract inv -> inv A = Ok X -> is_inverse A X.
Proof. intros H E. destruct (H A) as [(X' & E' & HI)|(E' & _)]; congruence. Qed.
Lemma inv_of inv A X : inv_contract inv -> is_inverse A X -> exists X', inv A = Ok X' /\ is_inverse A X'.
Proof. intros H HI. destruct (H A) as [|(E' & N)]; auto. exfalso. apply (N X HI). Qed.
Lemma existsb_seq f n : existsb f (seq 0 n) = true <-> exists i, (i < n)%nat /\ f i = true.
Proof.
  rewrite existsb_exists. split; intros (i & A & B); exists i; split; auto; [apply in_seq in A; lia|apply in_seq; lia].
Qed.

Lemma mvdr_open inv cov azi zen W : inv_contract inv -> length zen = length azi -> sh_mvdr inv cov azi zen = Ok (Some W) ->
  exists N Y X, nr cov = nc cov /\ nr cov = ((N + 1) ^ 2)%nat /\ order_of (nr cov) = Z.of_nat N /\ sh_matrix N azi zen = Ok Y /\ is_inverse cov X /\
    nr W = length azi /\ nc W = nr cov /\
    forall g, (g < length azi)%nat -> qf (nr cov) (ent X) (ent Y g) (ent Y g) <> 0 /\
      forall j, (j < nr cov)%nat -> ent W g j = rsum (nr cov) (fun k => ent Y g k * ent X k j) / qf (nr cov) (ent X) (ent Y g) (ent Y g).
Proof.
  intros HI HL E. unfold sh_mvdr, assert_ in E. destruct (Nat.eqb_spec (nr cov) (nc cov)) as [SQ|]; [|discriminate]. cbn [bind] in E.
  set (N := Z.to_nat (order_of (nr cov))) in *. destruct (sh_matrix_ok N azi zen HL) as (Y & EY & RY & CY & _). rewrite EY in E. cbn [bind] in E.
  destruct (inv cov) as [X|] eqn:EX; [|discriminate]. cbn [bind] in E. pose proof (inv_ok _ _ _ HI EX) as HX.
  destruct (matmul Y X) as [c|] eqn:Ec; [|discriminate]. cbn [bind] in E. destruct (matmul c (mtr Y)) as [a|] eqn:Ea; [|discriminate]. cbn [bind] in E.
  destruct (matmul_inv _ _ _ Ec) as (D1 & Rc & Cc & Hc). destruct (matmul_inv _ _ _ Ea) as (D2 & Ra & Ca & Ha).
  destruct (existsb _ _) eqn:EE; [discriminate|]. injection E as <-. cbn [nr nc ent].
  pose proof HX as (_ & RX & CX & _). assert (KN : nr cov = ((N + 1) ^ 2)%nat) by congruence.
  exists N, Y, X. split; auto. split; auto. split; [rewrite KN; apply order_of_sq|]. split; auto. split; auto. split; [congruence|]. split; [congruence|].
  intros g Hg. assert (AQ : ent a g g = qf (nr cov) (ent X) (ent Y g) (ent Y g)).
  { rewrite Ha, Cc, CX. unfold mtr. cbn [ent]. unfold qf. rewrite rsum_swap. apply rsum_ext. intros k Hk. rewrite Hc, CY, <- KN. rewrite <- rsum_scal_r. apply rsum_ext.
    intros j Hj. ring. }
  split.
  - intros Z. assert (T : existsb (fun g => Reqb (ent a g g) 0) (seq 0 (nr a)) = true); [|congruence]. apply existsb_seq. exists g. split; [congruence|].
    apply Reqb_true. congruence.
  - intros j Hj. rewrite Hc, AQ, CY, <- KN. reflexivity.
Qed.

Theorem mvdr_distortionless inv cov azi zen W : inv_contract inv -> length zen = length azi -> sh_mvdr inv cov azi zen = Ok (Some W) ->
  exists N, nr cov = ((N + 1) ^ 2)%nat /\ nr W = length azi /\ nc W = nr cov /\
    forall g, (g < length azi)%nat -> field_value sh_real N (mrow W g) (nth g azi 0) (nth g zen 0) = 1.
Proof.
  intros HI HL E. destruct (mvdr_open _ _ _ _ _ HI HL E) as (N & Y & X & SQ & KN & ON & EY & HX & RW & CW & H).
  exists N. split; auto. split; auto. split; auto. intros g Hg. destruct (H g Hg) as (NZ & HW).
  rewrite (field_steer N azi zen Y) by auto. rewrite <- KN. set (a := qf (nr cov) (ent X) (ent Y g) (ent Y g)) in *.
  rewrite (rsum_ext _ _ (fun j => rsum (nr cov) (fun k => ent Y g k * ent X k j * ent Y g j) * / a)).
  - rewrite rsum_scal_r, rsum_swap. fold (qf (nr cov) (ent X) (ent Y g) (ent Y g)). fold a. field. auto.
  - intros j Hj. rewrite nth_mrow by (rewrite CW; auto). rewrite HW by auto. rewrite rsum_scal_r. unfold Rdiv. ring.
Qed.

Theorem mvdr_optimal inv cov azi zen W : inv_contract inv -> length zen = length azi -> is_symmetric cov -> pos_def cov ->
  sh_mvdr inv cov azi zen = Ok (Some W) -> forall N g x, nr cov = ((N + 1) ^ 2)%nat -> (g < length azi)%nat -> length x = nr cov ->
  field_value sh_real N x (nth g azi 0) (nth g zen 0) = 1 ->
  power cov (mrow W g) <= power cov x /\ (power cov x = power cov (mrow W g) -> x = mrow W g).
Proof.
  intros HI HL SC PD E N' g x KN' Hg Lx Hx. pose proof (mvdr_distortionless _ _ _ _ _ HI HL E) as (N1 & KN1 & _ & _ & HD).
  destruct (mvdr_open _ _ _ _ _ HI HL E) as (N & Y & X & SQ & KN & ON & EY & HX & RW & CW & H).
  assert (NN : N' = N) by (rewrite KN' in KN; rewrite !sq2 in KN; nia). subst N'.
  assert (NN : N1 = N) by (rewrite KN1 in KN; rewrite !sq2 in KN; nia). subst N1.
  specialize (HD g Hg). rewrite (field_steer N azi zen Y) in HD, Hx by auto. rewrite <- KN in HD, Hx. destruct (H g Hg) as (NZ & HW).
  set (a := qf (nr cov) (ent X) (ent Y g) (ent Y g)) in *.
  pose proof (inverse_symmetric cov X SC HX) as XS. destruct HX as (_ & RX & CX & R1 & R2). destruct SC as (_ & SY).
  destruct (constrained_minimum (nr cov) 1 (ent cov) (fun _ => ent Y g) (fun _ => / a) (fun j => nth j (mrow W g) 0) (fun j => nth j x 0))
    as (A & B).
  - exact SY.
  - apply pos_def_pdf; auto.
  - intros i Hi. cbn [rsum]. rewrite Rplus_0_l.
    rewrite (rsum_ext _ _ (fun j => rsum (nr cov) (fun k => ent cov i j * ent X j k * ent Y g k) * / a)).
    + rewrite rsum_scal_r, rsum_swap. rewrite Rmult_comm. f_equal. rewrite <- (rsum_delta_l (nr cov) i (ent Y g)) by auto.
      apply rsum_ext. intros k Hk. rewrite rsum_scal_r, R1 by auto. reflexivity.
    + intros j Hj. rewrite nth_mrow by (rewrite CW; auto). rewrite HW by auto. unfold Rdiv. rewrite <- Rmult_assoc. f_equal. rewrite <- rsum_scal. apply rsum_ext.
      intros k Hk. rewrite (XS j k) by auto. ring.
  - intros _ _. rewrite HD, Hx. reflexivity.
  - split; [exact A|]. intros Q. apply (nth_ext_list 0); [rewrite length_mrow; congruence|]. intros i Hi. apply B; auto. congruence.
Qed.

Theorem mvdr_exists inv cov azi zen N : inv_contract inv -> length zen = length azi -> is_symmetric cov -> pos_def cov ->
  nr cov = ((N + 1) ^ 2)%nat -> exists W, sh_mvdr inv cov azi zen = Ok (Some W).
Proof.
  intros HI HL SC PD KN. destruct (pd_inverse cov SC PD) as (X0 & HX0). destruct (inv_of inv cov X0 HI HX0) as (X & EX & HX).
  pose proof (inverse_pdf cov X SC PD HX) as PX. destruct SC as (SQ & _). unfold sh_mvdr, assert_. rewrite SQ, Nat.eqb_refl. cbn [bind]. rewrite <- SQ, KN, order_of_sq, Nat2Z.id.
  destruct (sh_matrix_ok N azi zen HL) as (Y & EY & RY & CY & HY). rewrite EY. cbn [bind]. rewrite EX. cbn [bind].
  destruct HX as (_ & RX & CX & _).
  rewrite (matmul_ok Y X) by congruence. cbn [bind]. rewrite matmul_ok by (cbn [nc mtr nr]; congruence). cbn [bind nr nc ent mtr].
  match goal with |- context [existsb ?f ?l] => destruct (existsb f l) eqn:EE end; [|eauto]. exfalso.
  apply existsb_seq in EE. destruct EE as (g & Hg & Z). apply Reqb_true in Z. rewrite RY in Hg.
  assert (0 < qf (nr cov) (ent X) (ent Y g) (ent Y g)).
  { apply PX. exists O. rewrite KN. split; [rewrite sq2; nia|]. pose proof (HY g O O Hg ltac:(lia) ltac:(lia)) as H0. change (0 * 0 + 0)%nat with O in H0. change (Z.of_nat 0 - Z.of_nat 0)%Z with 0%Z in H0. rewrite H0.
    pose proof (sh_00_pos (nth g azi 0) (nth g zen 0)). lra. }
  unfold qf in H. rewrite rsum_swap in H. rewrite CX in Z.
  rewrite (rsum_ext _ _ (fun k => rsum (nr cov) (fun j => ent Y g j * ent X j k * ent Y g k))) in Z; [lra|].
  intros k Hk. rewrite <- rsum_scal_r, CY, <- KN. reflexivity.
Qed.
Theorem mvdr_singular inv cov azi zen : inv_contract inv -> length zen = length azi -> nr cov = nc cov -> (forall X, ~ is_inverse cov X) ->
  sh_mvdr inv cov azi zen = Err LinAlgError.
Proof.
  intros HI HL SQ HN. unfold sh_mvdr, assert_. rewrite SQ, Nat.eqb_refl. cbn [bind]. destruct (sh_matrix_ok (Z.to_nat (order_of (nc cov))) azi zen HL) as (Y & EY & _).
  rewrite EY. cbn [bind]. destruct (HI cov) as [(X & _ & HX)|(E & _)]; [destruct (HN X HX)|]. rewrite E. reflexivity.
Qed.

(** ** LCMV *)
Lemma rmv n m (a : nat -> R) (b : nat -> nat -> R) (c : nat -> R) :
  rsum m (fun j => rsum n (fun k => a k * b k j) * c j) = rsum n (fun k => a k * rsum m (fun j => b k j * c j)).
Proof.
  rewrite (rsum_ext m _ (fun j => rsum n (fun k => a k * b k j * c j))) by (intros; rewrite rsum_scal_r; reflexivity).
  rewrite rsum_swap. apply rsum_ext. intros k _. rewrite <- rsum_scal. apply rsum_ext. intros; ring.
Qed.
(** the matrix of the constraints: Y X Y^T *)
Definition gram (n : nat) (X Y : nat -> nat -> R) (g h : nat) : R := rsum n (fun j => rsum n (fun k => Y g k * X k j) * Y h j).
Lemma lcmv_open inv cov azi zen c w : inv_contract inv -> sh_lcmv inv cov azi zen c = Ok w ->
  exists N Y X G, nr cov = nc cov /\ length zen = length azi /\ length c = length azi /\ nr cov = ((N + 1) ^ 2)%nat /\ sh_matrix N azi zen = Ok Y /\ is_inverse cov X /\
    is_inverse (Mat (length azi) (length azi) (gram (nr cov) (ent X) (ent Y))) G /\ length w = nr cov /\
    forall j, (j < nr cov)%nat -> nth j w 0 =
      rsum (nr cov) (fun k => rsum (length azi) (fun h => rsum (length azi) (fun g => nth g c 0 * ent G g h) * ent Y h k) * ent X k j).
Proof.
  intros HI E. unfold sh_lcmv, assert_ in E. destruct (Nat.eqb_spec (nr cov) (nc cov)) as [SQ|]; [|discriminate]. cbn [bind] in E.
  destruct (Nat.eqb_spec (length azi) (length zen)) as [HL|]; [|discriminate]. cbn [bind] in E. symmetry in HL.
  destruct (Nat.eqb_spec (length azi) (length c)) as [HC|]; [|discriminate]. cbn [bind] in E. symmetry in HC.
  set (N := Z.to_nat (order_of (nr cov))) in *. destruct (sh_matrix_ok N azi zen HL) as (Y & EY & RY & CY & _). rewrite EY in E. cbn [bind] in E.
  destruct (inv cov) as [X|] eqn:EX; [|discriminate]. cbn [bind] in E. pose proof (inv_ok _ _ _ HI EX) as HX. pose proof HX as (_ & RX & CX & _).
  destruct (matmul (mtr (mtr Y)) X) as [t1|] eqn:E1; [|discriminate]. cbn [bind] in E. destruct (matmul t1 (mtr Y)) as [t2|] eqn:E2; [|discriminate]. cbn [bind] in E.
  destruct (inv t2) as [G|] eqn:EG; [|discriminate]. cbn [bind] in E. pose proof (inv_ok _ _ _ HI EG) as HG.
  destruct (matmul (row_mat c) G) as [t3|] eqn:E3; [|discriminate]. cbn [bind] in E. destruct (matmul t3 (mtr (mtr Y))) as [t4|] eqn:E4; [|discriminate]. cbn [bind] in E.
  destruct (matmul t4 X) as [t5|] eqn:E5; [|discriminate]. cbn [bind] in E. injection E as <-.
  destruct (matmul_inv _ _ _ E1) as (D1 & Q1 & K1 & H1). destruct (matmul_inv _ _ _ E2) as (D2 & Q2 & K2 & H2). destruct (matmul_inv _ _ _ E3) as (D3 & Q3 & K3 & H3).
  destruct (matmul_inv _ _ _ E4) as (D4 & Q4 & K4 & H4). destruct (matmul_inv _ _ _ E5) as (D5 & Q5 & K5 & H5). cbn [nr nc mtr row_mat ent] in *.
  assert (KN : nr cov = ((N + 1) ^ 2)%nat) by congruence. assert (T2 : nr t2 = length azi) by congruence. assert (T2' : nc t2 = length azi) by congruence.
  assert (GE : forall g h, ent t2 g h = gram (nr cov) (ent X) (ent Y) g h).
  { intros g h. rewrite H2, K1, CX. unfold gram. apply rsum_ext. intros j Hj. rewrite H1, CY, <- KN. reflexivity. }
  exists N, Y, X, G. do 6 (split; [assumption|]). split; [|split].
  - destruct HG as (G1 & G2 & G3 & G4 & G5). unfold is_inverse. cbn [nr nc ent]. rewrite T2 in *. repeat split; auto.
    + intros i j Hi Hj. rewrite <- (G4 i j) by auto. apply rsum_ext. intros. rewrite GE. reflexivity.
    + intros i j Hi Hj. rewrite <- (G5 i j) by auto. apply rsum_ext. intros. rewrite GE. reflexivity.
  - rewrite map_length, seq_length. congruence.
  - intros j Hj. rewrite nth_map_seq by congruence. rewrite H5, K4, CY, <- KN. apply rsum_ext. intros k Hk. f_equal. rewrite H4, K3.
    destruct HG as (_ & G2 & G3 & _). rewrite G3, T2. apply rsum_ext. intros h Hh. f_equal. rewrite H3, HC. reflexivity.
Qed.

Theorem lcmv_constraints inv cov azi zen c w : inv_contract inv -> sh_lcmv inv cov azi zen c = Ok w ->
  exists N, nr cov = ((N + 1) ^ 2)%nat /\ length w = nr cov /\ length zen = length azi /\ length c = length azi /\
    forall g, (g < length azi)%nat -> field_value sh_real N w (nth g azi 0) (nth g zen 0) = nth g c 0.
Proof.
  intros HI E. destruct (lcmv_open _ _ _ _ _ _ HI E) as (N & Y & X & G & SQ & HL & HC & KN & EY & HX & HG & LW & H).
  exists N. repeat split; auto. intros g Hg. rewrite (field_steer N azi zen Y) by auto. rewrite <- KN. set (n := nr cov) in *. set (m := length azi) in *.
  rewrite (rsum_ext n _ (fun j => rsum n (fun k => rsum m (fun h => rsum m (fun g => nth g c 0 * ent G g h) * ent Y h k) * ent X k j) * ent Y g j))
    by (intros; rewrite H by auto; reflexivity).
  rewrite rmv. rewrite rmv.
  rewrite (rsum_ext m _ (fun h => rsum m (fun g => nth g c 0 * ent G g h) * gram n (ent X) (ent Y) h g)).
  - rewrite rmv. destruct HG as (_ & _ & _ & _ & G5). cbn [nr ent] in G5. rewrite <- (rsum_delta_r m g (fun g => nth g c 0)) by auto. apply rsum_ext. intros h Hh.
    rewrite G5 by auto. reflexivity.
  - intros h Hh. f_equal. unfold gram. rewrite rmv. reflexivity.
Qed.

Theorem lcmv_optimal inv cov azi zen c w : inv_contract inv -> is_symmetric cov -> pos_def cov -> sh_lcmv inv cov azi zen c = Ok w ->
  forall N x, nr cov = ((N + 1) ^ 2)%nat -> length x = nr cov ->
  (forall g, (g < length azi)%nat -> field_value sh_real N x (nth g azi 0) (nth g zen 0) = nth g c 0) ->
  power cov w <= power cov x /\ (power cov x = power cov w -> x = w).
Proof.
  intros HI SC PD E N' x KN' Lx Hx. destruct (lcmv_constraints _ _ _ _ _ _ HI E) as (N1 & KN1 & _ & _ & _ & HW).
  destruct (lcmv_open _ _ _ _ _ _ HI E) as (N & Y & X & G & SQ & HL & HC & KN & EY & HX & HG & LW & H).
  assert (NN : N' = N) by (rewrite KN' in KN; rewrite !sq2 in KN; nia). subst N'.
  assert (NN : N1 = N) by (rewrite KN1 in KN; rewrite !sq2 in KN; nia). subst N1.
  pose proof (inverse_symmetric cov X SC HX) as XS. destruct HX as (_ & RX & CX & R1 & R2). destruct SC as (_ & SY).
  set (n := nr cov) in *. set (m := length azi) in *.
  destruct (constrained_minimum n m (ent cov) (ent Y) (fun h => rsum m (fun g => nth g c 0 * ent G g h)) (fun j => nth j w 0) (fun j => nth j x 0)) as (A & B).
  - exact SY.
  - apply pos_def_pdf; auto.
  - intros i Hi. set (u := fun k => rsum m (fun h => rsum m (fun g => nth g c 0 * ent G g h) * ent Y h k)).
    rewrite (rsum_ext n _ (fun j => rsum n (fun k => u k * ent X k j) * ent cov i j)) by (intros j Hj; rewrite H by auto; unfold u; ring).
    rewrite rmv. change (rsum m (fun g => rsum m (fun g0 => nth g0 c 0 * ent G g0 g) * ent Y g i)) with (u i).
    rewrite <- (rsum_delta_r n i u) by auto. apply rsum_ext. intros k Hk. f_equal. rewrite <- R2 by auto. apply rsum_ext. intros j Hj. rewrite (SY i j) by auto. reflexivity.
  - intros g Hg. rewrite KN. rewrite <- !(field_steer N azi zen Y) by auto. rewrite HW, Hx by auto. reflexivity.
  - split; [exact A|]. intros Q. apply (nth_ext_list 0); [congruence|]. intros i Hi. apply B; auto. congruence.
Qed.

Lemma gram_sym n X Y g h : (forall i j, (i < n)%nat -> (j < n)%nat -> X i j = X j i) -> gram n X Y g h = gram n X Y h g.
Proof.
  intros XS. unfold gram. rewrite rmv. apply rsum_ext. intros k Hk. rewrite Rmult_comm. f_equal. apply rsum_ext. intros j Hj. rewrite (XS k j) by auto. ring.
Qed.
Lemma gram_qf n m X Y x : qf m (gram n X Y) x x = qf n X (fun k => rsum m (fun g => x g * Y g k)) (fun k => rsum m (fun g => x g * Y g k)).
Proof.
  rewrite (qf_alt n).
  rewrite rmv. rewrite qf_alt. apply rsum_ext. intros g Hg. f_equal.
  rewrite (rsum_ext m _ (fun h => rsum n (fun j => rsum n (fun k => Y g k * X k j) * Y h j) * x h)) by (intros; reflexivity).
  rewrite rmv. rewrite rmv. apply rsum_ext. intros k Hk. f_equal. apply rsum_ext. intros j Hj. f_equal. apply rsum_ext. intros; ring.
Qed.
Theorem lcmv_exists inv cov azi zen c N Y : inv_contract inv -> is_symmetric cov -> pos_def cov -> nr cov = ((N + 1) ^ 2)%nat ->
  length zen = length azi -> length c = length azi -> sh_matrix N azi zen = Ok Y -> independent (length azi) (nr cov) (ent Y) ->
  exists w, sh_lcmv inv cov azi zen c = Ok w.
Proof.
  intros HI SC PD KN HL HC EY IN. destruct (pd_inverse cov SC PD) as (X0 & HX0). destruct (inv_of inv cov X0 HI HX0) as (X & EX & HX).
  pose proof (inverse_pdf cov X SC PD HX) as PX. pose proof (inverse_symmetric cov X SC HX) as XS. destruct SC as (SQ & _).
  destruct (sh_matrix_ok N azi zen HL) as (Y' & EY' & RY & CY & _). rewrite EY in EY'. injection EY' as <-. destruct HX as (_ & RX & CX & _).
  unfold sh_lcmv, assert_. rewrite <- SQ, Nat.eqb_refl. cbn [bind]. rewrite HL, Nat.eqb_refl. cbn [bind]. rewrite HC, Nat.eqb_refl. cbn [bind]. rewrite KN, order_of_sq, Nat2Z.id.
  rewrite EY. cbn [bind]. rewrite EX. cbn [bind]. rewrite (matmul_ok (mtr (mtr Y)) X) by (cbn [nc nr mtr]; congruence). cbn [bind].
  rewrite matmul_ok by (cbn [nr nc mtr]; congruence). cbn [bind nr nc ent mtr].
  match goal with |- context [inv ?m] => set (T := m) end.
  assert (TS : is_symmetric T /\ pos_def T).
  { assert (TE : forall g h, ent T g h = gram (nr cov) (ent X) (ent Y) g h).
    { intros g h. unfold T. cbn [ent]. rewrite CX. unfold gram. apply rsum_ext. intros j Hj. rewrite CY, <- KN. reflexivity. }
    split.
    - split; [reflexivity|]. intros g h _ _. rewrite !TE. apply gram_sym. auto.
    - apply pdf_pos_def. intros x (g & Hg & Nx). rewrite (qf_ext _ _ (gram (nr cov) (ent X) (ent Y)) x x x x) by (auto; intros; apply TE).
      rewrite gram_qf. unfold T in *. cbn [nr] in *. rewrite RY in *.
      set (u := fun k => rsum (length azi) (fun g => x g * ent Y g k)).
      destruct (Req_dec (qf (nr cov) (ent X) u u) 0) as [Z|Z]; [|pose proof (pdf_nonneg (nr cov) (ent X) u PX); lra].
      exfalso. apply Nx. apply (IN x); auto. intros j Hj. apply (pdf_zero _ _ u PX Z j Hj). }
  destruct TS as (TS & TP). destruct (pd_inverse T TS TP) as (G0 & HG0). destruct (inv_of inv T G0 HI HG0) as (G & EG & HG). rewrite EG. cbn [bind].
  destruct HG as (_ & RG & CG & _). unfold T in RG, CG. cbn [nr] in RG, CG.
  rewrite matmul_ok by (cbn [nc row_mat]; congruence). cbn [bind]. rewrite matmul_ok by (cbn [nc nr mtr row_mat]; congruence). cbn [bind].
  rewrite matmul_ok by (cbn [nc nr mtr row_mat]; congruence). cbn [bind]. eauto.
Qed.
Theorem lcmv_repeated inv cov azi zen c w g h : inv_contract inv -> sh_lcmv inv cov azi zen c = Ok w -> (g < length azi)%nat -> (h < length azi)%nat -> g <> h ->
  ~ (nth g azi 0 = nth h azi 0 /\ nth g zen 0 = nth h zen 0).
Proof.
  intros HI E Hg Hh NE (EA & EZ). destruct (lcmv_open _ _ _ _ _ _ HI E) as (N & Y & X & G & SQ & HL & HC & KN & EY & HX & HG & LW & H).
  destruct (sh_matrix_ok N azi zen HL) as (Y' & EY' & RY & CY & HY). rewrite EY in EY'. injection EY' as <-.
  assert (YE : forall j, (j < nr cov)%nat -> ent Y g j = ent Y h j).
  { intros j Hj. rewrite KN in Hj. destruct (acn_decomp N j Hj) as (n & k & Hn & Hk & ->). rewrite !HY by auto. rewrite EA, EZ. reflexivity. }
  destruct HG as (_ & _ & _ & _ & G5). cbn [nr ent] in G5. pose proof (G5 g g Hg Hg) as A. pose proof (G5 g h Hg Hh) as B.
  rewrite delta_same in A. rewrite delta_diff in B by auto.
  assert (rsum (length azi) (fun k => ent G g k * gram (nr cov) (ent X) (ent Y) k h) = rsum (length azi) (fun k => ent G g k * gram (nr cov) (ent X) (ent Y) k g)).
  { apply rsum_ext. intros k Hk. f_equal. unfold gram. apply rsum_ext. intros j Hj. rewrite YE by auto. reflexivity. }
  lra.
Qed.
