(** The Moore-Penrose inverse gives the smallest best fit. *)
From Verif Require Import Base BaseFacts S_sph S_grids S_lsq P_grids3.
Open Scope R_scope.

Section Fit.
Variables (Y P : mat) (t : nat -> R).
Hypothesis PI' : penrose Y P.
Let c k := rsum (nr Y) (fun g => ent P k g * t g).
Let app (v : nat -> R) g := rsum (nc Y) (fun k => ent Y g k * v k).

(** Y c = (Y P) t, and the residual is orthogonal to the columns *)
Lemma fit_app g : (g < nr Y)%nat -> app c g = rsum (nr Y) (fun q => mprod (nc Y) Y P g q * t q).
Proof.
  intro Hg. unfold app, c. transitivity (rsum (nc Y) (fun k => rsum (nr Y) (fun q => ent Y g k * (ent P k q * t q)))).
  - apply rsum_ext. intros k _. rewrite rsum_scal. reflexivity.
  - rewrite rsum_swap. apply rsum_ext. intros q _. unfold mprod. rewrite <- rsum_scal_r. apply rsum_ext. intros. ring.
Qed.
Lemma fit_normal j : (j < nc Y)%nat -> rsum (nr Y) (fun g => (app c g - t g) * ent Y g j) = 0.
Proof.
  intro Hj. destruct PI' as (_ & _ & P1 & _ & P3 & _).
  rewrite (rsum_ext _ _ (fun g => app c g * ent Y g j - t g * ent Y g j)) by (intros; ring). rewrite rsum_minus.
  rewrite (rsum_ext _ (fun g => app c g * ent Y g j) (fun g => rsum (nr Y) (fun q => mprod (nc Y) Y P q g * ent Y g j * t q))).
  2:{ intros g Hg. rewrite fit_app by exact Hg. rewrite <- rsum_scal_r. apply rsum_ext. intros q Hq. rewrite (P3 g q) by assumption. ring. }
  rewrite rsum_swap. rewrite (rsum_ext _ (fun q => rsum (nr Y) _) (fun q => t q * ent Y q j)); [ring|].
  intros q Hq. rewrite rsum_scal_r. rewrite P1 by assumption. ring.
Qed.
Lemma app_minus u v g : app (fun k => u k - v k) g = app u g - app v g.
Proof. unfold app. rewrite <- rsum_minus. apply rsum_ext. intros. ring. Qed.
Lemma misfit_split c' : misfit Y t c' = misfit Y t c + rsum (nr Y) (fun g => app (fun k => c' k - c k) g ^ 2).
Proof.
  assert (OR : rsum (nr Y) (fun g => (app c g - t g) * app (fun k => c' k - c k) g) = 0).
  { unfold app at 2. rewrite (rsum_ext _ _ (fun g => rsum (nc Y) (fun k => (c' k - c k) * ((app c g - t g) * ent Y g k)))).
    2:{ intros g _. rewrite <- rsum_scal. apply rsum_ext. intros. ring. }
    rewrite rsum_swap. apply rsum_0. intros k Hk. rewrite rsum_scal, fit_normal by exact Hk. ring. }
  unfold misfit. change (fun g => (rsum (nc Y) (fun k => ent Y g k * c' k) - t g) ^ 2) with (fun g => (app c' g - t g) ^ 2).
  change (fun g => (rsum (nc Y) (fun k => ent Y g k * c k) - t g) ^ 2) with (fun g => (app c g - t g) ^ 2). rewrite <- rsum_plus.
  transitivity (rsum (nr Y) (fun g => (app c g - t g) ^ 2 + app (fun k => c' k - c k) g ^ 2 + 2 * ((app c g - t g) * app (fun k => c' k - c k) g))).
  - apply rsum_ext. intros g _. rewrite app_minus. ring.
  - rewrite rsum_plus, rsum_scal, OR. ring.
Qed.
(** c = P Y c *)
Lemma fit_row k : (k < nc Y)%nat -> c k = rsum (nc Y) (fun j => mprod (nr Y) P Y k j * c j).
Proof.
  intro Hk. destruct PI' as (_ & _ & _ & P2 & _). unfold c at 1. rewrite (rsum_ext _ _ (fun g => rsum (nc Y) (fun j => mprod (nr Y) P Y k j * ent P j g * t g))).
  2:{ intros g Hg. rewrite rsum_scal_r, P2 by assumption. reflexivity. }
  rewrite rsum_swap. apply rsum_ext. intros j _. unfold c. rewrite <- rsum_scal. apply rsum_ext. intros. ring.
Qed.
Lemma fit_small c' : (forall g, (g < nr Y)%nat -> app (fun k => c' k - c k) g = 0) -> size2 (nc Y) c <= size2 (nc Y) c'.
Proof.
  intro Z0. set (d := fun k => c' k - c k) in *.
  assert (OR : rsum (nc Y) (fun k => c k * d k) = 0).
  { destruct PI' as (_ & _ & _ & _ & _ & P4). rewrite (rsum_ext _ _ (fun k => rsum (nc Y) (fun j => c j * (mprod (nr Y) P Y j k * d k)))).
    2:{ intros k Hk. rewrite (fit_row k Hk) at 1. rewrite <- rsum_scal_r. apply rsum_ext. intros j Hj. rewrite (P4 k j) by assumption. ring. }
    rewrite rsum_swap. apply rsum_0. intros j Hj. rewrite rsum_scal.
    replace (rsum (nc Y) (fun k => mprod (nr Y) P Y j k * d k)) with 0; [ring|]. symmetry. unfold mprod.
    rewrite (rsum_ext _ _ (fun k => rsum (nr Y) (fun g => ent P j g * (ent Y g k * d k)))) by (intros k _; rewrite <- rsum_scal_r; apply rsum_ext; intros; ring).
    rewrite rsum_swap. apply rsum_0. intros g Hg. rewrite rsum_scal. replace (rsum (nc Y) (fun k => ent Y g k * d k)) with (app d g) by reflexivity. rewrite (Z0 g Hg). ring. }
  assert (E : size2 (nc Y) c' = size2 (nc Y) c + rsum (nc Y) (fun k => d k ^ 2)).
  { unfold size2. rewrite <- rsum_plus. transitivity (rsum (nc Y) (fun k => c k ^ 2 + d k ^ 2 + 2 * (c k * d k))).
    - apply rsum_ext. intros k _. unfold d. ring.
    - rewrite rsum_plus, rsum_scal, OR. ring. }
  rewrite E. pose proof (rsum_nonneg (nc Y) (fun k => d k ^ 2) (fun k _ => pow2_ge_0 (d k))). lra.
Qed.
Lemma pinv_fit : best_fit Y t c.
Proof.
  intro c'. rewrite (misfit_split c'). pose proof (rsum_nonneg (nr Y) (fun g => app (fun k => c' k - c k) g ^ 2) (fun g _ => pow2_ge_0 _)) as NN. split; [lra|].
  intro E. apply fit_small. intros g Hg. assert (S0 : rsum (nr Y) (fun g => app (fun k => c' k - c k) g ^ 2) = 0) by lra.
  pose proof (rsum_nonneg_0 (nr Y) _ (fun g _ => pow2_ge_0 _) S0 g Hg) as Q. cbn beta in Q. apply Rsqr_0_uniq. rewrite Rsqr_pow2. exact Q.
Qed.
(** targets in the range are recovered *)
Lemma pinv_exact v : left_invertible Y -> (forall g, (g < nr Y)%nat -> t g = rsum (nc Y) (fun k => ent Y g k * v k)) -> forall k, (k < nc Y)%nat -> c k = v k.
Proof.
  intros LI T k Hk. unfold c. rewrite (rsum_ext _ _ (fun g => rsum (nc Y) (fun j => ent P k g * ent Y g j * v j))).
  2:{ intros g Hg. rewrite (T g Hg), <- rsum_scal. apply rsum_ext. intros. ring. }
  rewrite rsum_swap. rewrite (rsum_ext _ _ (fun j => delta k j * v j)).
  - apply rsum_delta_l. exact Hk.
  - intros j Hj. rewrite rsum_scal_r. f_equal. exact (penrose_left Y P PI' LI k j Hk Hj).
Qed.
End Fit.
