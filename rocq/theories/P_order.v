(** The order that calculate_grid_weights finds. *)
From Coq Require Import Lra Lia.
From Verif Require Import Base BaseFacts M_utils M_sig P_sig M_sph0 M_sph M_grids S_utils S_sph S_grids S_svd P_sph7 P_sph11 P_grids3 P_svd3 S_order.
Open Scope R_scope.

Lemma sumsq_pos n x : 0 <= sumsq n x.
Proof. apply rsum_sq_nonneg. Qed.
Lemma sumsq_zero n x : sumsq n x = 0 -> forall i, (i < n)%nat -> x i = 0.
Proof.
  intros H i Hi. assert (A : x i * x i <= sumsq n x).
  { unfold sumsq. clear H. induction n as [|n IH]; [lia|]. cbn [rsum]. pose proof (rsum_sq_nonneg n x). pose proof (Rle_0_sqr (x n)) as Q. unfold Rsqr in Q.
    destruct (Nat.eq_dec i n) as [->|]; [lra|]. specialize (IH ltac:(lia)). lra. }
  rewrite H in A. nra.
Qed.
Lemma act_gram Y x a : act (gram Y) x a = rsum (nr Y) (fun q => ent Y q a * act Y x q).
Proof.
  unfold act, gram. cbn [nc ent].
  transitivity (rsum (nc Y) (fun b => rsum (nr Y) (fun q => ent Y q a * (ent Y q b * x b)))).
  - apply rsum_ext. intros b _. rewrite Rmult_comm, <- rsum_scal. apply rsum_ext. intros q _. ring.
  - rewrite rsum_swap. apply rsum_ext. intros q _. rewrite <- rsum_scal. reflexivity.
Qed.
Lemma gram_form Y x y : rsum (nc Y) (fun a => y a * act (gram Y) x a) = rsum (nr Y) (fun q => act Y y q * act Y x q).
Proof.
  transitivity (rsum (nc Y) (fun a => rsum (nr Y) (fun q => ent Y q a * y a * act Y x q))).
  - apply rsum_ext. intros a _. rewrite act_gram, <- rsum_scal. apply rsum_ext. intros q _. ring.
  - rewrite rsum_swap. apply rsum_ext. intros q _. unfold act at 2. rewrite (Rmult_comm _ (act Y x q)). rewrite <- rsum_scal. apply rsum_ext. intros a _. ring.
Qed.
Lemma gram_regular Y : regular (gram Y) -> regular Y.
Proof.
  intros H x Z. apply (H x). intros a Ha. cbn [gram nr] in Ha. rewrite act_gram. apply rsum_0. intros q Hq. rewrite Z by exact Hq. ring.
Qed.
Lemma regular_gram Y : regular Y -> regular (gram Y).
Proof.
  intros H x Z. apply (H x). apply sumsq_zero. unfold sumsq. rewrite <- gram_form. apply rsum_0. intros a Ha. rewrite Z by exact Ha. ring.
Qed.
Lemma regular_left Y P : regular Y -> penrose Y P -> left_invertible Y.
Proof.
  intros H (RP & CP & P1 & _). exists P. intros a b Ha Hb.
  assert (E : mprod (nr Y) P Y a b - delta a b = 0); [|lra].
  apply (H (fun a => mprod (nr Y) P Y a b - delta a b)); [|exact Ha]. intros q Hq. unfold act.
  rewrite (rsum_ext _ _ (fun j => ent Y q j * mprod (nr Y) P Y j b + - (ent Y q j * delta j b))) by (intros; ring). rewrite rsum_plus, rsum_opp.
  rewrite (rsum_ext _ (fun j => ent Y q j * delta j b) (fun j => delta j b * ent Y q j)) by (intros; ring).
  assert (D : rsum (nc Y) (fun j => delta j b * ent Y q j) = ent Y q b).
  { rewrite (rsum_single _ b); [unfold delta; rewrite Nat.eqb_refl; ring|exact Hb|]. intros k _ N. unfold delta. destruct (Nat.eqb_spec k b); [contradiction|ring]. }
  rewrite D. rewrite <- (P1 q b Hq Hb). unfold mprod.
  rewrite (rsum_ext (nc Y) _ (fun j => rsum (nr Y) (fun k => ent Y q j * ent P j k * ent Y k b))) by (intros j _; rewrite <- rsum_scal; apply rsum_ext; intros; ring).
  rewrite rsum_swap. rewrite (rsum_ext (nr Y) (fun k => rsum (nc Y) (fun k0 => ent Y q k0 * ent P k0 k) * ent Y k b) (fun k => rsum (nc Y) (fun j => ent Y q j * ent P j k * ent Y k b))).
  - ring.
  - intros k _. rewrite Rmult_comm, <- rsum_scal. apply rsum_ext. intros; ring.
Qed.
Lemma amplifies_mono A K K' : K <= K' -> amplifies_within A K -> amplifies_within A K'.
Proof.
  intros L (P & H). split; [lra|]. intros x y. eapply Rle_trans; [apply H|]. apply Rmult_le_compat_r; [apply Rmult_le_pos; apply sumsq_pos|]. apply pow_incr. lra.
Qed.

Section Search.
Variables (pinv : mat -> mat) (cond : mat -> R) (azi zen : list R).
Hypothesis HP : exact_pinv pinv.
Hypothesis HC : cond_contract cond.
Hypothesis HL : length zen = length azi.
Definition cnum (k : nat) : R := match sh_matrix k azi zen with Ok Y => cond (gram Y) | Err _ => 0 end.
Lemma check_ok k : check_cond_sht cond k azi zen = Ok (cnum k).
Proof.
  unfold check_cond_sht, cnum. destruct (sh_matrix_ok k azi zen HL) as (Y & E & _). rewrite E. cbn [bind]. rewrite matmul_ok by reflexivity. reflexivity.
Qed.
Lemma sq_pos k : (0 < (k + 1) ^ 2)%nat.
Proof. cbn [Nat.pow]. lia. Qed.
Lemma within_supports k : (k <= 99)%nat -> (cnum k <= 2 * (INR k + 1) <-> supports azi zen k).
Proof.
  intros Hk. unfold cnum, supports. destruct (sh_matrix_ok k azi zen HL) as (Y & E & RY & CY & _). rewrite E.
  destruct (HC (gram Y) eq_refl) as (C1 & C2); [cbn [gram nc]; rewrite CY; apply sq_pos|].
  assert (KB : 2 * (INR k + 1) <= 200). { apply le_INR in Hk. replace (INR 99) with 99 in Hk by (simpl; ring). lra. }
  split.
  - intros H. exists Y. split; [reflexivity|]. assert (RG : regular (gram Y)).
    { destruct (Classical_Prop.classic (regular (gram Y))) as [G|G]; [exact G|]. apply C2 in G. lra. }
    split; [exact RG|]. apply (amplifies_mono _ (cond (gram Y))); [exact H|]. apply C1. exact RG.
  - intros (Y' & E' & RG & AW). injection E' as <-. apply C1; assumption.
Qed.
Lemma supports_left k : supports azi zen k -> exists Y, sh_matrix k azi zen = Ok Y /\ left_invertible Y /\ ((k + 1) ^ 2 <= length azi)%nat.
Proof.
  intros (Y & E & RG & _). destruct (sh_matrix_ok k azi zen HL) as (Y' & E' & RY & CY & _). rewrite E in E'. injection E' as <-. exists Y. split; [exact E|].
  assert (LI : left_invertible Y) by (apply (regular_left Y (pinv Y)); [apply gram_regular; exact RG|apply HP]). split; [exact LI|]. rewrite <- CY, <- RY. apply svd_rank. exact LI.
Qed.
Lemma order_found : (length azi < 100 ^ 2)%nat -> exists N, (N < 99)%nat /\ (forall k, (1 <= k <= N)%nat -> supports azi zen k) /\ ~ supports azi zen (N + 1) /\
  calculate_grid_weights pinv cond azi zen None = calculate_grid_weights pinv cond azi zen (Some (Z.of_nat N)).
Proof.
  intros HQ. pose proof (search_spec cnum 99 1) as SS. destruct (search_order cnum 1 99) as [o|].
  - destruct SS as (j & J1 & -> & J2 & J3). exists (j - 1)%nat. replace (j - 1 + 1)%nat with j by lia. split; [lia|].
    assert (J4 : forall k, (1 <= k <= j - 1)%nat -> cnum k <= 2 * (INR k + 1)) by (intros k Hk; apply J3; lia). split; [|split].
    + intros k Hk. apply within_supports; [lia|]. apply J4. exact Hk.
    + intros S. apply within_supports in S; [lra|lia].
    + apply (proj1 (grid_weights_search pinv cond azi zen cnum (fun k _ => check_ok k))); [lia| |exact J4]. replace (j - 1 + 1)%nat with j by lia. exact J2.
  - exfalso. assert (S : supports azi zen 99) by (apply within_supports; [lia|]; apply SS; lia). destruct (supports_left 99 S) as (_ & _ & _ & H).
    change (99 + 1)%nat with 100%nat in H. revert HQ H. generalize (100 ^ 2)%nat. intros; lia.
Qed.
Lemma too_good : (forall k, (1 <= k <= 99)%nat -> supports azi zen k) -> calculate_grid_weights pinv cond azi zen None = Err TypeError.
Proof.
  intros H. apply (proj2 (grid_weights_search pinv cond azi zen cnum (fun k _ => check_ok k))). intros i Hi. apply within_supports; [lia|]. apply H. exact Hi.
Qed.
Lemma order_result : zeniths zen -> (length azi < 100 ^ 2)%nat -> exists N, (forall k, (1 <= k <= N)%nat -> supports azi zen k) /\ ~ supports azi zen (N + 1) /\
  (N = 0%nat -> calculate_grid_weights pinv cond azi zen None = Err AssertionError) /\
  ((1 <= N)%nat -> ((N + 1) ^ 2 <= length azi)%nat /\ exists w, calculate_grid_weights pinv cond azi zen None = Ok w /\ exact_for sh_real N azi zen w /\
     forall w', exact_for sh_real N azi zen w' -> lsum (map (fun x => x * x) w) <= lsum (map (fun x => x * x) w')).
Proof.
  intros HZ HQ. destruct (order_found HQ) as (N & HN & S & NS & E). exists N. split; [exact S|]. split; [exact NS|]. split.
  - intros ->. rewrite E. apply grid_weights_bad_order. lia.
  - intros N1. destruct (supports_left N (S N ltac:(lia))) as (Y & EY & LI & LE). split; [exact LE|]. rewrite E. apply (grid_weights_ok pinv cond N azi zen Y); auto.
Qed.
End Search.

(** ** grids with quadrature weights *)
Section Quadrature.
Variables (Y : mat) (w : list R) (a b : R).
Hypothesis HO : orthonormal_on Y w.
Hypothesis HA : 0 < a.
Hypothesis HW : forall q, (q < nr Y)%nat -> a <= nth q w 0 <= b.
Lemma energy x : rsum (nr Y) (fun q => nth q w 0 * (act Y x q * act Y x q)) = sumsq (nc Y) x.
Proof.
  transitivity (rsum (nc Y) (fun i => rsum (nc Y) (fun j => x i * x j * rsum (nr Y) (fun q => nth q w 0 * (ent Y q i * ent Y q j))))).
  - transitivity (rsum (nr Y) (fun q => rsum (nc Y) (fun i => rsum (nc Y) (fun j => x i * x j * (nth q w 0 * (ent Y q i * ent Y q j)))))).
    + apply rsum_ext. intros q _. transitivity (rsum (nc Y) (fun i => nth q w 0 * act Y x q * (ent Y q i * x i))).
      * rewrite rsum_scal. fold (act Y x q). ring.
      * apply rsum_ext. intros i _. transitivity (rsum (nc Y) (fun j => nth q w 0 * (ent Y q i * x i) * (ent Y q j * x j))); [rewrite rsum_scal; fold (act Y x q); ring|]. apply rsum_ext. intros j _. ring.
    + rewrite rsum_swap. apply rsum_ext. intros i _. rewrite rsum_swap. apply rsum_ext. intros j _. rewrite rsum_scal. reflexivity.
  - unfold sumsq. apply rsum_ext. intros i Hi. rewrite (rsum_ext (nc Y) _ (fun j => delta i j * (x i * x j))) by (intros j Hj; rewrite HO by assumption; ring). rewrite rsum_delta_l by exact Hi. reflexivity.
Qed.
Lemma frame x : a * sumsq (nr Y) (act Y x) <= sumsq (nc Y) x <= b * sumsq (nr Y) (act Y x).
Proof.
  rewrite <- energy. unfold sumsq. rewrite <- !rsum_scal. split; apply rsum_le; intros q Hq; specialize (HW q Hq); pose proof (Rle_0_sqr (act Y x q)) as Q; unfold Rsqr in Q; apply Rmult_le_compat_r; lra.
Qed.
Lemma quad_regular : regular Y.
Proof.
  intros x Z. apply sumsq_zero. pose proof (frame x) as (_ & F2). pose proof (sumsq_pos (nc Y) x). assert (sumsq (nr Y) (act Y x) = 0); [|nra].
  unfold sumsq. apply rsum_0. intros q Hq. rewrite Z by exact Hq. ring.
Qed.
Lemma gram_upper x : a ^ 2 * sumsq (nc Y) (act (gram Y) x) <= sumsq (nc Y) x.
Proof.
  set (g := sumsq (nc Y) (act (gram Y) x)). assert (G0 : 0 <= g) by apply sumsq_pos. pose proof (sumsq_pos (nc Y) x) as X0.
  destruct (Req_dec g 0) as [->|GN]; [lra|].
  pose proof (frame x) as (F1 & _). pose proof (frame (act (gram Y) x)) as (F2 & _). fold g in F2.
  pose proof (rsum_cauchy_schwarz (nr Y) (act Y (act (gram Y) x)) (act Y x)) as CS. rewrite <- gram_form in CS. fold (sumsq (nc Y) (act (gram Y) x)) in CS. fold g in CS. unfold Rsqr in CS.
  fold (sumsq (nr Y) (act Y (act (gram Y) x))) in CS. fold (sumsq (nr Y) (act Y x)) in CS. set (u := sumsq (nr Y) (act Y (act (gram Y) x))) in *. set (s := sumsq (nr Y) (act Y x)) in *.
  assert (U0 : 0 <= u) by apply sumsq_pos. assert (S0 : 0 <= s) by apply sumsq_pos. set (n := sumsq (nc Y) x) in *.
  apply Rmult_le_reg_l with g; [lra|].
  assert (A1 : a * u * (a * s) <= g * n) by (apply Rmult_le_compat; nra). assert (a ^ 2 * (g * g) <= a ^ 2 * (u * s)) by (apply Rmult_le_compat_l; nra). nra.
Qed.
Lemma gram_lower x : sumsq (nc Y) x <= b ^ 2 * sumsq (nc Y) (act (gram Y) x).
Proof.
  pose proof (frame x) as (F1 & F2). pose proof (rsum_cauchy_schwarz (nc Y) x (act (gram Y) x)) as CS. rewrite gram_form in CS. fold (sumsq (nr Y) (act Y x)) in CS. unfold Rsqr in CS.
  fold (sumsq (nc Y) x) in CS. fold (sumsq (nc Y) (act (gram Y) x)) in CS. set (g := sumsq (nc Y) (act (gram Y) x)) in *. set (s := sumsq (nr Y) (act Y x)) in *. set (n := sumsq (nc Y) x) in *.
  assert (G0 : 0 <= g) by apply sumsq_pos. assert (S0 : 0 <= s) by apply sumsq_pos. assert (N0 : 0 <= n) by apply sumsq_pos.
  destruct (Req_dec n 0) as [->|NN]; [apply Rmult_le_pos; [apply pow2_ge_0|exact G0]|].
  assert (0 < s) by (destruct (Req_dec s 0) as [E|]; [rewrite E in F2; lra|lra]). assert (0 < b) by nra.
  apply Rmult_le_reg_l with n; [lra|]. assert (n * n <= b * s * (b * s)) by (apply Rmult_le_compat; lra). assert (b ^ 2 * (s * s) <= b ^ 2 * (n * g)) by (apply Rmult_le_compat_l; [apply pow2_ge_0|exact CS]). nra.
Qed.
Lemma quad_within : a <= b -> amplifies_within (gram Y) (b / a).
Proof.
  intros AB. split; [apply Rlt_le, Rdiv_lt_0_compat; lra|]. intros x y. cbn [gram nr nc]. fold (gram Y).
  pose proof (gram_upper x) as U. pose proof (gram_lower y) as L. pose proof (sumsq_pos (nc Y) (act (gram Y) x)). pose proof (sumsq_pos (nc Y) y).
  apply Rmult_le_reg_l with (a ^ 2); [nra|]. replace (a ^ 2 * ((b / a) ^ 2 * (sumsq (nc Y) (act (gram Y) y) * sumsq (nc Y) x))) with (sumsq (nc Y) x * (b ^ 2 * sumsq (nc Y) (act (gram Y) y))) by (field; lra).
  rewrite <- Rmult_assoc. apply Rmult_le_compat; nra.
Qed.
End Quadrature.
Lemma quad_supports N azi zen w a b k : exact_for sh_real (2 * N) azi zen w -> 0 < a -> b <= 4 * a -> (forall x, In x w -> a <= x <= b) -> (1 <= k <= N)%nat -> supports azi zen k.
Proof.
  intros EX HA HB HW Hk. pose proof EX as (L1 & L2 & Z & S & _).
  assert (EK : exact_for sh_real (2 * k) azi zen w) by (apply exact_mono with (2 * N)%nat; [lia|exact EX]).
  destruct (gram_grid k azi zen w EK) as (Y & E & RY & CY & O). exists Y. split; [exact E|].
  assert (W : forall q, (q < nr Y)%nat -> a <= nth q w 0 <= b) by (intros q Hq; apply HW, nth_In; congruence).
  assert (AB : a <= b). { destruct w as [|x w']; [cbn in S; pose proof PI_RGT_0; lra|]. specialize (HW x (or_introl eq_refl)). lra. }
  split; [apply regular_gram, (quad_regular Y w a b O W)|]. apply (amplifies_mono _ (b / a)); [|apply (quad_within Y w a b O HA W AB)].
  apply Rle_trans with 4.
  - apply Rmult_le_reg_r with a; [exact HA|]. unfold Rdiv. rewrite Rmult_assoc, Rinv_l by lra. lra.
  - assert (1 <= INR k) by (apply (le_INR 1); lia). lra.
Qed.
