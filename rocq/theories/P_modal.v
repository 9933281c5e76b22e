(** Beams of the modal weights of sph.py. *)
From Verif Require Import Base BaseFacts M_utils M_sig M_sph0 M_sph S_sph P_sph1 P_sph12 S_parsa P_gl1 P_gl2 P_gl3 S_modal.
Open Scope R_scope.
Local Arguments eval_legendre : simpl never.

Definition amp (w : list R) (x : R) : R := rsum (length w) (fun n => nth n w 0 * (2 * INR n + 1) / (4 * PI) * eval_legendre n x).
Lemma dirac_amp w t : dirac_at w t = amp w (cos t). Proof. reflexivity. Qed.
Lemma beam_amp w : (0 < length w)%nat -> beam w (fun t => amp w (cos t)).
Proof. intros L t. rewrite dirac_ok by lia. reflexivity. Qed.
Lemma beam_unique w D : (0 < length w)%nat -> beam w D -> forall t, D t = amp w (cos t).
Proof. intros L H t. specialize (H t). rewrite dirac_ok in H by lia. cbn [map] in H. injection H as H. symmetry. exact H. Qed.

Lemma sphere_pint f u : pint f u -> sphere_integral (fun t => f (cos t)) (2 * PI * u).
Proof.
  intros (F & DF & ->). exists (fun t => - (2 * PI) * F (cos t)). split; [|rewrite cos_PI, cos_0; ring].
  intros t. replace (2 * PI * f (cos t) * sin t) with (- (2 * PI) * (f (cos t) * - sin t)) by ring.
  apply derivable_pt_lim_scal. exact (derivable_pt_lim_comp cos F t _ _ (derivable_pt_lim_cos t) (DF (cos t))).
Qed.
Lemma sphere_unique f g u v : (forall t, f t = g t) -> sphere_integral f u -> sphere_integral g v -> u = v.
Proof.
  intros Q [G [DG ->]] [H [DH ->]].
  assert (D : forall t, derivable_pt_lim (fun t => G t - H t) t 0).
  { intros t. replace 0 with (2 * PI * f t * sin t - 2 * PI * g t * sin t) by (rewrite Q; ring). exact (derivable_pt_lim_minus G H t _ _ (DG t) (DH t)). }
  assert (pr : derivable (fun t => G t - H t)) by (intros t; exists 0; apply D).
  assert (C : constant (fun t => G t - H t)) by (apply (null_derivative_1 _ pr); intros t; apply derive_pt_eq_0, D).
  specialize (C PI 0). cbv beta in C. lra.
Qed.
Lemma sphere_ext f g u : (forall t, f t = g t) -> sphere_integral f u -> sphere_integral g u.
Proof. intros Q (F & DF & E). exists F. split; [|exact E]. intros t. rewrite <- Q. apply DF. Qed.

(** inner products of expansions *)
Lemma pint_pair i j : pint (fun x => eval_legendre i x * eval_legendre j x) (delta i j * (2 / (2 * INR i + 1))).
Proof.
  unfold delta. destruct (Nat.eqb_spec i j) as [<-|N]; [rewrite Rmult_1_l; apply pint_norm|].
  rewrite Rmult_0_l. apply pint_orth. exact N.
Qed.
Lemma pint_series n (a b : nat -> R) :
  pint (fun x => rsum n (fun i => a i * eval_legendre i x) * rsum n (fun j => b j * eval_legendre j x)) (rsum n (fun i => a i * b i * (2 / (2 * INR i + 1)))).
Proof.
  apply (pint_ext (fun x => rsum n (fun i => rsum n (fun j => a i * b j * (eval_legendre i x * eval_legendre j x))))).
  { intros x. rewrite <- rsum_scal_r. apply rsum_ext. intros i _. rewrite rsum_scal_l. apply rsum_ext. intros. ring. }
  replace (rsum n (fun i => a i * b i * (2 / (2 * INR i + 1)))) with (rsum n (fun i => rsum n (fun j => a i * b j * (delta i j * (2 / (2 * INR i + 1)))))).
  - apply (pint_sum n (fun i x => rsum n (fun j => a i * b j * (eval_legendre i x * eval_legendre j x)))). intros i _.
    apply (pint_sum n (fun j x => a i * b j * (eval_legendre i x * eval_legendre j x)) (fun j => a i * b j * (delta i j * (2 / (2 * INR i + 1))))). intros j _.
    apply pint_scal, pint_pair.
  - apply rsum_ext. intros i Hi. rewrite (rsum_single n i); [unfold delta; rewrite Nat.eqb_refl; ring|exact Hi|].
    intros j _ N. unfold delta. destruct (Nat.eqb_spec i j); [congruence|ring].
Qed.
Lemma series_zero n (a : nat -> R) : (forall x, -1 <= x <= 1 -> rsum n (fun i => a i * eval_legendre i x) = 0) -> forall i, (i < n)%nat -> a i = 0.
Proof.
  intros Z. assert (Z' : forall x, rsum n (fun i => a i * eval_legendre i x) = 0).
  { pose (xs := fun i : nat => / (INR i + 1)).
    assert (XP : forall i, 0 < xs i <= 1).
    { intros i. unfold xs. pose proof (pos_INR i). split; [apply Rinv_0_lt_compat; lra|]. rewrite <- Rinv_1 at 2. apply Rinv_le_contravar; lra. }
    apply (lspan_zero n (fun x => rsum n (fun i => a i * eval_legendre i x)) xs).
    - exists a. reflexivity.
    - intros i j _ _ E. apply INR_eq. unfold xs in E. pose proof (pos_INR i). pose proof (pos_INR j). apply (f_equal Rinv) in E. rewrite !Rinv_inv in E. lra.
    - intros i _. apply Z. pose proof (XP i). lra. }
  intros i Hi. pose proof (pint_series n a (fun j => delta i j)) as P.
  assert (U : rsum n (fun k => a k * delta i k * (2 / (2 * INR k + 1))) = 0).
  { apply (pint_unique _ _ _ P). apply (pint_ext (fun _ => 0)); [intros x; rewrite Z'; ring|apply pint_0]. }
  rewrite (rsum_single n i) in U; [|exact Hi|].
  - unfold delta in U. rewrite Nat.eqb_refl in U. pose proof (pos_INR i). apply (Rmult_eq_reg_r (2 / (2 * INR i + 1))); [lra|].
    apply Rgt_not_eq. apply Rdiv_lt_0_compat; lra.
  - intros j _ N. unfold delta. destruct (Nat.eqb_spec i j); [congruence|ring].
Qed.
Lemma amp_inj u v : length u = length v -> (forall x, -1 <= x <= 1 -> amp u x = amp v x) -> u = v.
Proof.
  intros L H. apply (nth_ext u v 0 0 L). intros n Hn. pose proof PI_RGT_0 as PP.
  assert (Z : (nth n u 0 - nth n v 0) * (2 * INR n + 1) / (4 * PI) = 0).
  { apply (series_zero (length u) (fun n => (nth n u 0 - nth n v 0) * (2 * INR n + 1) / (4 * PI))); [|exact Hn]. intros x Hx. specialize (H x Hx). unfold amp in H. rewrite <- L in H.
    rewrite (rsum_ext _ _ (fun i => nth i u 0 * (2 * INR i + 1) / (4 * PI) * eval_legendre i x + (-1) * (nth i v 0 * (2 * INR i + 1) / (4 * PI) * eval_legendre i x))) by (intros; unfold Rdiv; ring).
    rewrite rsum_plus, rsum_scal. lra. }
  pose proof (pos_INR n). apply Rminus_diag_uniq. apply (Rmult_eq_reg_r ((2 * INR n + 1) / (4 * PI))); [|apply Rgt_not_eq, Rdiv_lt_0_compat; lra].
  rewrite Rmult_0_l. etransitivity; [|exact Z]. unfold Rdiv. ring.
Qed.
Lemma beam_inj u v D : (0 < length u)%nat -> length u = length v -> beam u D -> beam v D -> u = v.
Proof.
  intros P L Hu Hv. apply amp_inj; [exact L|]. intros x Hx. rewrite <- (cos_acos x) by exact Hx.
  rewrite <- (beam_unique u D P Hu), <- (beam_unique v D) by (auto; lia). reflexivity.
Qed.

(** energies *)
Definition en (w : list R) : R := rsum (length w) (fun n => (2 * INR n + 1) / (4 * PI) * nth n w 0 ^ 2).
Lemma amp_sq w : pint (fun x => amp w x ^ 2) (en w / (2 * PI)).
Proof.
  pose proof PI_RGT_0 as PP. apply (pint_ext (fun x => amp w x * amp w x)); [intros; ring|].
  replace (en w / (2 * PI)) with (rsum (length w) (fun i => (nth i w 0 * (2 * INR i + 1) / (4 * PI)) * (nth i w 0 * (2 * INR i + 1) / (4 * PI)) * (2 / (2 * INR i + 1)))).
  - exact (pint_series (length w) (fun i => nth i w 0 * (2 * INR i + 1) / (4 * PI)) (fun i => nth i w 0 * (2 * INR i + 1) / (4 * PI))).
  - apply (Rmult_eq_reg_l (2 * PI)); [|lra]. replace (2 * PI * (en w / (2 * PI))) with (en w) by (field; lra). unfold en. rewrite rsum_scal_l. apply rsum_ext. intros i _. field. pose proof (pos_INR i). lra.
Qed.
Lemma energy_ex w : (0 < length w)%nat -> beam_energy w (en w).
Proof.
  intros L. pose proof PI_RGT_0 as PP. exists (fun t => amp w (cos t)). split; [apply beam_amp; exact L|].
  replace (en w) with (2 * PI * (en w / (2 * PI))) by (field; lra). exact (sphere_pint _ _ (amp_sq w)).
Qed.
Lemma energy_val w e : (0 < length w)%nat -> beam_energy w e -> e = en w.
Proof.
  intros L (D & B & H). destruct (energy_ex w L) as (D' & B' & H'). apply (sphere_unique _ _ _ _ (fun t => f_equal (fun y => y ^ 2) (eq_trans (beam_unique w D L B t) (eq_sym (beam_unique w D' L B' t)))) H H').
Qed.
Lemma moment_ex w m : (0 < length w)%nat -> pint (fun x => amp w x ^ 2 * x) m -> beam_moment w (2 * PI * m).
Proof. intros L H. exists (fun t => amp w (cos t)). split; [apply beam_amp; exact L|]. exact (sphere_pint _ _ H). Qed.
Lemma moment_unique w m m' : (0 < length w)%nat -> beam_moment w m -> beam_moment w m' -> m = m'.
Proof.
  intros L (D & B & H) (D' & B' & H'). refine (sphere_unique _ _ _ _ _ H H'). intros t. cbv beta.
  rewrite (beam_unique w D L B), (beam_unique w D' L B'). reflexivity.
Qed.

(** ** hypercardioid *)
Lemma sum_odd N : rsum (N + 1) (fun n => 2 * INR n + 1) = (INR N + 1) ^ 2.
Proof. induction N as [|N IH]; [simpl; ring|]. replace (S N + 1)%nat with (S (N + 1)) by lia. cbn [rsum]. rewrite IH, S_INR, plus_INR. simpl (INR 1). ring. Qed.
Lemma hyper_nth N n : (n <= N)%nat -> nth n (hypercardioid_modal_weights N) 0 = 4 * PI / (INR N + 1) ^ 2.
Proof.
  intros H. unfold hypercardioid_modal_weights. rewrite (nth_indep _ 0 (4 * PI / INR ((N + 1) ^ 2))) by (rewrite repeat_length; lia). rewrite nth_repeat, pow_INR, plus_INR. reflexivity.
Qed.
Lemma hyper_len N : length (hypercardioid_modal_weights N) = (N + 1)%nat. Proof. apply repeat_length. Qed.
Lemma hyper_gap N c : length c = (N + 1)%nat -> unit_response c -> let h := 4 * PI / (INR N + 1) ^ 2 in
  en c = h + rsum (N + 1) (fun n => (2 * INR n + 1) / (4 * PI) * (nth n c 0 - h) ^ 2).
Proof.
  intros L U h. pose proof PI_RGT_0 as PP. pose proof (pos_INR N) as PN. unfold unit_response in U. unfold en. rewrite L in *.
  rewrite (rsum_ext (N + 1) (fun n => (2 * INR n + 1) / (4 * PI) * (nth n c 0 - h) ^ 2)
    (fun n => (2 * INR n + 1) / (4 * PI) * nth n c 0 ^ 2 + ((-2 * h) * ((2 * INR n + 1) / (4 * PI) * nth n c 0) + (h ^ 2 / (4 * PI)) * (2 * INR n + 1)))) by (intros; field; lra).
  rewrite !rsum_plus, !rsum_scal, U, sum_odd. unfold h. field. split; lra.
Qed.
Lemma hyper_en N : en (hypercardioid_modal_weights N) = 4 * PI / (INR N + 1) ^ 2.
Proof.
  rewrite (hyper_gap N) by (first [apply hyper_len|apply hyper_unit]). rewrite rsum_0; [ring|].
  intros n Hn. rewrite hyper_nth by lia. ring.
Qed.
Lemma hyper_best N c : length c = (N + 1)%nat -> unit_response c -> 4 * PI / (INR N + 1) ^ 2 <= en c /\ (en c = 4 * PI / (INR N + 1) ^ 2 -> c = hypercardioid_modal_weights N).
Proof.
  intros L U. pose proof (hyper_gap N c L U) as G. cbv zeta in G. set (h := 4 * PI / (INR N + 1) ^ 2) in *. pose proof PI_RGT_0 as PP.
  assert (T : forall n, 0 <= (2 * INR n + 1) / (4 * PI) * (nth n c 0 - h) ^ 2).
  { intros n. pose proof (pos_INR n). apply Rmult_le_pos; [left; apply Rdiv_lt_0_compat; lra|apply pow2_ge_0]. }
  pose proof (rsum_nonneg (N + 1) _ (fun n _ => T n)) as S0. split; [lra|]. intros E.
  apply (nth_ext _ _ 0 0); [rewrite hyper_len; exact L|]. intros n Hn. rewrite L in Hn. rewrite hyper_nth by lia. fold h.
  assert (Z : (2 * INR n + 1) / (4 * PI) * (nth n c 0 - h) ^ 2 <= 0).
  { eapply Rle_trans; [exact (rsum_ge_term (N + 1) (fun n => (2 * INR n + 1) / (4 * PI) * (nth n c 0 - h) ^ 2) n (fun i _ => T i) Hn)|]. lra. }
  pose proof (pos_INR n). assert (Q : 0 < (2 * INR n + 1) / (4 * PI)) by (apply Rdiv_lt_0_compat; lra).
  pose proof (pow2_ge_0 (nth n c 0 - h)) as W. assert (W0 : (nth n c 0 - h) ^ 2 = 0) by nra.
  assert (nth n c 0 - h = 0); [|lra]. destruct (Req_dec (nth n c 0 - h) 0) as [Y|Y]; [exact Y|]. exfalso. apply (pow_nonzero _ 2 Y W0).
Qed.
