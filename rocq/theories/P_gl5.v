(** Legendre's equation and the value at 1 determine the polynomial on [-1, 1]. *)
From Coq Require Import Lra Lia.
From Verif Require Import Base BaseFacts M_sph0 S_sph P_sph1 P_sph4 P_sph12 P_grids1 P_gl1.
Open Scope R_scope.

Lemma mono_le F F' a b : (forall x, derivable_pt_lim F x (F' x)) -> a <= b -> (forall x, a < x < b -> 0 <= F' x) -> F a <= F b.
Proof.
  intros D AB P. destruct (Req_dec a b) as [->|N]; [lra|].
  destruct (MVT_cor2 F F' a b ltac:(lra) ltac:(intros; apply D)) as (c & E & Hc). specialize (P c Hc). assert (0 <= F' c * (b - a)) by (apply Rmult_le_pos; lra). lra.
Qed.
Section Unique.
Variables (n : nat) (f f1 f2 : R -> R).
Hypothesis D1 : forall x, derivable_pt_lim f x (f1 x).
Hypothesis D2 : forall x, derivable_pt_lim f1 x (f2 x).
Hypothesis OD : forall x, (1 - x * x) * f2 x - 2 * x * f1 x + INR n * (INR n + 1) * f x = 0.
Hypothesis F1 : f 1 = 0.
Definition en (x : R) : R := INR n * (INR n + 1) * (f x * f x) + (1 - x * x) * (f1 x * f1 x).
Lemma en_deriv x : derivable_pt_lim en x (2 * x * (f1 x * f1 x)).
Proof.
  pose proof (derivable_pt_lim_plus _ _ x _ _
    (derivable_pt_lim_scal _ (INR n * (INR n + 1)) x _ (derivable_pt_lim_mult _ _ x _ _ (D1 x) (D1 x)))
    (derivable_pt_lim_mult _ _ x _ _ (derivable_pt_lim_minus _ _ x _ _ (derivable_pt_lim_const 1 x) (derivable_pt_lim_mult _ _ x _ _ (derivable_pt_lim_id x) (derivable_pt_lim_id x))) (derivable_pt_lim_mult _ _ x _ _ (D2 x) (D2 x)))) as K.
  apply (dpl_ext (fun y => (INR n * (INR n + 1)) * (f y * f y) + (1 - y * y) * (f1 y * f1 y))); [reflexivity|].
  unfold plus_fct, mult_fct, mult_real_fct, minus_fct, fct_cte, id in K.
  eapply dpl_val; [|exact K]. unfold mult_fct, minus_fct, fct_cte, id. pose proof (OD x) as O.
  transitivity (2 * f1 x * ((1 - x * x) * f2 x - 2 * x * f1 x + INR n * (INR n + 1) * f x) + 2 * x * (f1 x * f1 x)); [ring|rewrite O; ring].
Qed.
Lemma en_nonneg x : -1 <= x <= 1 -> 0 <= en x.
Proof. intros H. unfold en. pose proof (pos_INR n). assert (0 <= f x * f x) by apply Rle_0_sqr. assert (0 <= f1 x * f1 x) by apply Rle_0_sqr. assert (0 <= 1 - x * x) by nra. assert (0 <= INR n * (INR n + 1)) by nra.
  apply Rplus_le_le_0_compat; apply Rmult_le_pos; assumption. Qed.
Lemma en_right x : 0 <= x <= 1 -> en x = 0.
Proof.
  intros H. apply Rle_antisym; [|apply en_nonneg; lra]. replace 0 with (en 1) by (unfold en; rewrite F1; ring).
  apply (mono_le en (fun x => 2 * x * (f1 x * f1 x))); [exact en_deriv|lra|]. intros y Hy. apply Rmult_le_pos; [lra|apply Rle_0_sqr].
Qed.
Lemma en_left x : -1 < x <= 0 -> en x = 0.
Proof.
  intros H. apply Rle_antisym; [|apply en_nonneg; lra]. set (c := 2 / (1 - x * x)). assert (Q : 0 < 1 - x * x) by nra. assert (C : 0 < c) by (apply Rdiv_lt_0_compat; lra).
  set (G := fun y => en y * exp (c * y)).
  assert (DG : forall y, derivable_pt_lim G y ((c * en y + 2 * y * (f1 y * f1 y)) * exp (c * y))).
  { intros y. assert (I : derivable_pt_lim (fun t => c * t) y c) by (eapply dpl_val; [|exact (derivable_pt_lim_scal id c y 1 (derivable_pt_lim_id y))]; ring).
    pose proof (derivable_pt_lim_comp (fun t => c * t) exp y c _ I (derivable_pt_lim_exp (c * y))) as K.
    pose proof (derivable_pt_lim_mult _ _ y _ _ (en_deriv y) K) as K'. eapply dpl_val; [|exact K']. unfold comp. ring. }
  assert (L : G x <= G 0).
  { apply (mono_le G _ x 0 DG); [lra|]. intros y Hy. apply Rmult_le_pos; [|left; apply exp_pos].
    assert (E1 : (1 - y * y) * (f1 y * f1 y) <= en y).
    { unfold en. assert (0 <= INR n * (INR n + 1) * (f y * f y)) by (pose proof (pos_INR n); apply Rmult_le_pos; [nra|apply Rle_0_sqr]). lra. }
    assert (S0 : 0 <= f1 y * f1 y) by apply Rle_0_sqr.
    assert (E2 : c * ((1 - y * y) * (f1 y * f1 y)) <= c * en y) by (apply Rmult_le_compat_l; lra).
    assert (E3 : 2 * (f1 y * f1 y) <= c * ((1 - y * y) * (f1 y * f1 y))).
    { rewrite <- (Rmult_assoc c). apply Rmult_le_compat_r; [exact S0|]. unfold c. apply (Rmult_le_reg_r (1 - x * x)); [exact Q|]. replace (2 / (1 - x * x) * (1 - y * y) * (1 - x * x)) with (2 * (1 - y * y)) by (field; lra). nra. }
    nra. }
  assert (G0 : G 0 = 0) by (unfold G; rewrite (en_right 0) by lra; ring). rewrite G0 in L. unfold G in L.
  pose proof (exp_pos (c * x)). nra.
Qed.
Lemma f1_zero x : -1 < x < 1 -> f1 x = 0.
Proof.
  intros H. assert (E : en x = 0) by (destruct (Rle_dec x 0); [apply en_left; lra|apply en_right; lra]). unfold en in E.
  assert (0 <= INR n * (INR n + 1) * (f x * f x)) by (pose proof (pos_INR n); apply Rmult_le_pos; [nra|apply Rle_0_sqr]).
  assert (0 < 1 - x * x) by nra. assert (0 <= f1 x * f1 x) by apply Rle_0_sqr. assert (Z : f1 x * f1 x = 0) by nra. apply Rmult_integral in Z. destruct Z; assumption.
Qed.
Lemma f_zero x : -1 <= x <= 1 -> f x = 0.
Proof.
  intros H. destruct (Req_dec x 1) as [->|N]; [exact F1|].
  destruct (MVT_cor2 f f1 x 1 ltac:(lra) ltac:(intros; apply D1)) as (c & E & Hc). rewrite f1_zero in E by lra. rewrite F1 in E. lra.
Qed.
End Unique.
Lemma legendre_unique n P : is_legendre n P -> forall x, -1 <= x <= 1 -> P x = eval_legendre n x.
Proof.
  intros (P1 & P' & P'' & (h & Eh & Dh) & (h' & Eh' & Dh') & OD) x Hx.
  destruct (legendre_is n) as (Q1 & Q' & Q'' & (k & Ek & Dk) & (k' & Ek' & Dk') & OQ).
  assert (Z : P x - eval_legendre n x = 0); [|lra].
  apply (f_zero n (fun x => P x - eval_legendre n x) (fun x => P' x - Q' x) (fun x => P'' x - Q'' x)); [| | |lra|exact Hx].
  - intros y. apply (derivable_pt_lim_minus P (eval_legendre n)); [apply (dpl_ext h); auto|apply (dpl_ext k); auto].
  - intros y. apply (derivable_pt_lim_minus P' Q'); [apply (dpl_ext h'); auto|apply (dpl_ext k'); auto].
  - intros y. specialize (OD y). specialize (OQ y). lra.
Qed.
