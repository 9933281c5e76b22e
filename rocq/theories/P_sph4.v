(** Solid harmonics, part 4: homogeneity, the addition theorem, linear
    independence, and the harmonics on the unit sphere. *)
From Verif Require Import Base BaseFacts M_sph0 P_sph1 P_sph2 P_sph3.

(** Euler: derivative along v itself *)
Lemma dHc_self l m v : dHc l m v v = INR l * Hc l m v.
Proof.
  unfold dHc, Hc. pose proof (Q_b l m (vz v) (dot3 v v)) as B.
  assert (C : dck m (vx v) (vy v) (vx v) (vy v) = INR m * ck m (vx v) (vy v)).
  { destruct m; [simpl; ring|]. unfold dck. rewrite ck_S. ring. }
  rewrite C, B. ring.
Qed.
Lemma dHs_self l m v : dHs l m v v = INR l * Hs l m v.
Proof.
  unfold dHs, Hs. pose proof (Q_b l m (vz v) (dot3 v v)) as B.
  assert (C : dsk m (vx v) (vy v) (vx v) (vy v) = INR m * sk m (vx v) (vy v)).
  { destruct m; [simpl; ring|]. unfold dsk. rewrite sk_S. ring. }
  rewrite C, B. ring.
Qed.

Lemma rowc_self L m v : (m <= S L)%nat ->
  rowc L v m (fun k => tc L k v) (fun k => ts L k v) = (INR L + 1) / (2 * INR L + 3) * tc (S L) m v.
Proof.
  intros H. pose proof (dtc_row L m v v H) as E. unfold dtc in E. rewrite dHc_self, S_INR in E.
  pose proof (pos_INR L). apply Rmult_eq_reg_l with (2 * INR L + 3); [|lra].
  rewrite <- E. unfold tc. field. lra.
Qed.
Lemma rows_self L m v : (m <= S L)%nat ->
  rows_ L v m (fun k => tc L k v) (fun k => ts L k v) = (INR L + 1) / (2 * INR L + 3) * ts (S L) m v.
Proof.
  intros H. pose proof (dts_row L m v v H) as E. unfold dts in E. rewrite dHs_self, S_INR in E.
  pose proof (pos_INR L). apply Rmult_eq_reg_l with (2 * INR L + 3); [|lra].
  rewrite <- E. unfold ts. field. lra.
Qed.

(** derivatives of sums *)
Lemma ddir_ext f g v w d : (forall x, f x = g x) -> ddir f v w d -> ddir g v w d.
Proof. intros E. apply dpl_ext. intros y. apply E. Qed.
Lemma ddir_scal c f v w d : ddir f v w d -> ddir (fun x => c * f x) v w (c * d).
Proof. intros H. apply (derivable_pt_lim_scal _ c _ _ H). Qed.
Lemma ddir_plus f g v w d e : ddir f v w d -> ddir g v w e -> ddir (fun x => f x + g x) v w (d + e).
Proof. intros H K. apply (derivable_pt_lim_plus _ _ _ _ _ H K). Qed.
Lemma ddir_const c v w : ddir (fun _ => c) v w 0.
Proof. apply derivable_pt_lim_const. Qed.
Lemma ddir_rsum n (f : nat -> V3 -> R) v w (d : nat -> R) :
  (forall k, (k < n)%nat -> ddir (f k) v w (d k)) -> ddir (fun x => rsum n (fun k => f k x)) v w (rsum n d).
Proof.
  induction n as [|n IH]; intros H; simpl.
  - apply ddir_const.
  - apply (ddir_plus (fun x => rsum n (fun k => f k x)) (f n)); [apply IH; auto|apply H; lia].
Qed.
Lemma ddir_dsum l (f g : nat -> V3 -> R) v w (d e : nat -> R) :
  (forall k, (k <= l)%nat -> ddir (f k) v w (d k)) -> (forall k, (k <= l)%nat -> ddir (g k) v w (e k)) ->
  ddir (fun x => dsum l (fun k => f k x) (fun k => g k x)) v w (dsum l d e).
Proof.
  intros H K. unfold dsum. apply (ddir_plus (fun x => / 2 * f O x)).
  - apply ddir_scal. apply H. lia.
  - apply (ddir_rsum l (fun k x => f (S k) x + g (S k) x)). intros k Hk. apply ddir_plus; [apply H|apply K]; lia.
Qed.
Lemma ddir_unique f v w d e : ddir f v w d -> ddir f v w e -> d = e.
Proof. apply uniqueness_limite. Qed.

Lemma dsum_ext l f g f' g' : (forall k, (k <= l)%nat -> f k = f' k) -> (forall k, (0 < k <= l)%nat -> g k = g' k) ->
  dsum l f g = dsum l f' g'.
Proof.
  intros H K. unfold dsum. rewrite (H O) by lia. f_equal. apply rsum_ext. intros k Hk. rewrite H, K by lia. reflexivity.
Qed.
Lemma dsum_scal l c f g : dsum l (fun k => c * f k) (fun k => c * g k) = c * dsum l f g.
Proof.
  unfold dsum. rewrite Rmult_plus_distr_l, <- rsum_scal. f_equal; [ring|]. apply rsum_ext. intros. ring.
Qed.
Lemma dsum_plus l f g f' g' : dsum l (fun k => f k + f' k) (fun k => g k + g' k) = dsum l f g + dsum l f' g'.
Proof.
  unfold dsum. rewrite (rsum_ext l _ (fun k => (f (S k) + g (S k)) + (f' (S k) + g' (S k)))) by (intros; ring).
  rewrite (rsum_plus l (fun k => f (S k) + g (S k)) (fun k => f' (S k) + g' (S k))). ring.
Qed.

(** * Addition theorem, on all of R^3 *)
Lemma Q_zero_deriv l u v :
  ddir (fun x => Q l 0 (dot3 u x) (dot3 u u * dot3 x x)) v u
    (dot3 u u * (INR l * Qp l 0 (dot3 u v) (dot3 u u * dot3 v v))).
Proof.
  unfold ddir.
  assert (DZ : derivable_pt_lim (fun t => dot3 u (add3 v (scal3 t u))) 0 (dot3 u u)).
  { apply dpl_ext with (fun t => dot3 u v + t * dot3 u u); [|apply lin_deriv].
    intros t. unfold dot3, add3, scal3, vx, vy, vz. simpl. ring. }
  pose proof (derivable_pt_lim_scal _ (dot3 u u) _ _ (dot_deriv v u)) as DS. unfold mult_real_fct in DS.
  pose proof (Q_deriv _ _ 0 _ _ l 0 DZ DS) as F. cbv beta in F. rewrite add3_scal0 in F.
  eapply dpl_val; [|exact F].
  pose proof (gz l 0 (dot3 u v) (dot3 u u * dot3 v v)) as G. simpl INR in G. rewrite Rplus_0_r in G.
  rewrite <- G. rewrite (dot3_comm v u). field.
Qed.

Theorem addition l : forall u v,
  dsum l (fun m => tc l m u * tc l m v) (fun m => ts l m u * ts l m v) =
  (2 * INR l + 1) / (4 * PI) * Q l 0 (dot3 u v) (dot3 u u * dot3 v v).
Proof.
  pose proof PI_RGT_0 as PP.
  induction l as [|L IH]; intros u v.
  - unfold dsum. simpl rsum. rewrite Q_diag. unfold tc, Hc. rewrite !Q_diag. simpl ck. simpl dfact.
    transitivity (/ 2 * (sqrt 2 * sqrt 2) * (nk 0 0 * nk 0 0)); [ring|].
    rewrite nk_sq, sqrt_sqrt by lra. simpl. field. lra.
  - pose proof (pos_INR L) as PL.
    set (K := fun x => dsum L (fun m => tc L m u * tc L m x) (fun m => ts L m u * ts L m x)).
    assert (D1 : ddir K v u (dsum L (fun m => tc L m u * dtc L m u v) (fun m => ts L m u * dts L m u v))).
    { unfold K. apply (ddir_dsum L (fun m x => tc L m u * tc L m x) (fun m x => ts L m u * ts L m x)).
      - intros k _. apply ddir_scal, tc_deriv.
      - intros k _. apply ddir_scal, ts_deriv. }
    assert (D2 : ddir K v u ((2 * INR L + 1) / (4 * PI) * (dot3 u u * (INR L * Qp L 0 (dot3 u v) (dot3 u u * dot3 v v))))).
    { apply ddir_ext with (fun x => (2 * INR L + 1) / (4 * PI) * Q L 0 (dot3 u x) (dot3 u u * dot3 x x)).
      - intros x. unfold K. rewrite IH. reflexivity.
      - apply ddir_scal, Q_zero_deriv. }
    pose proof (ddir_unique _ _ _ _ _ D1 D2) as DE.
    (* the harmonic part *)
    assert (HP : dsum L (fun m => tc L m u * pic L m u v) (fun m => ts L m u * pis L m u v) =
                 (INR L + 1) / (4 * PI) * Q (S L) 0 (dot3 u v) (dot3 u u * dot3 v v)).
    { assert (E : dsum L (fun m => tc L m u * pic L m u v) (fun m => ts L m u * pis L m u v) =
         dot3 v u * K v + - (dot3 v v / (2 * INR L + 1)) * dsum L (fun m => tc L m u * dtc L m u v) (fun m => ts L m u * dts L m u v)).
      { unfold K. rewrite <- !dsum_scal, <- dsum_plus. apply dsum_ext; intros k _; unfold pic, pis; ring. }
      rewrite E, DE. unfold K. rewrite IH.
      pose proof (Q_rec L 0 (dot3 u v) (dot3 u u * dot3 v v) ltac:(lia)) as RR. simpl INR in RR.
      rewrite Rminus_0_r, Rplus_0_r in RR.
      apply Rmult_eq_reg_l with (4 * PI); [|lra].
      transitivity ((2 * INR L + 1) * dot3 u v * Q L 0 (dot3 u v) (dot3 u u * dot3 v v) -
         INR L * (dot3 u u * dot3 v v) * Qp L 0 (dot3 u v) (dot3 u u * dot3 v v)).
      - rewrite (dot3_comm v u). field. split; lra.
      - rewrite <- RR. field. lra. }
    rewrite swap in HP by apply ts_0.
    rewrite (dsum_ext (S L) _ _ (fun m => (INR L + 1) / (2 * INR L + 3) * (tc (S L) m u * tc (S L) m v))
      (fun m => (INR L + 1) / (2 * INR L + 3) * (ts (S L) m u * ts (S L) m v))) in HP.
    + rewrite dsum_scal in HP.
      rewrite S_INR. apply Rmult_eq_reg_l with ((INR L + 1) / (2 * INR L + 3)).
      * rewrite HP. field. split; lra.
      * apply Rmult_integral_contrapositive; split; [lra|]. apply Rinv_neq_0_compat. lra.
    + intros k Hk. rewrite rowc_self by lia. ring.
    + intros k Hk. rewrite rows_self by lia. ring.
Qed.

(** * Linear independence *)
Lemma ck_polar m a : ck m (cos a) (sin a) = cos (INR m * a) /\ sk m (cos a) (sin a) = sin (INR m * a).
Proof.
  induction m as [|m [IC IS]].
  - simpl. rewrite Rmult_0_l, cos_0, sin_0. auto.
  - rewrite ck_S, sk_S, IC, IS, S_INR. replace ((INR m + 1) * a) with (a + INR m * a) by ring.
    rewrite cos_plus, sin_plus. split; ring.
Qed.
Lemma dfact_pos m : 0 < dfact m.
Proof. induction m; simpl; [lra|]. apply Rmult_lt_0_compat; auto. pose proof (pos_INR m). lra. Qed.
Lemma al_pos L m : (m <= L)%nat -> 0 < al L m.
Proof.
  intros H. apply sqrt_lt_R0. pose proof (pos_INR L). pose proof (pos_INR m). apply le_INR in H.
  apply Rdiv_lt_0_compat; nra.
Qed.
Lemma aA_pos L m : 0 < aA L m.
Proof. apply sqrt_lt_R0. pose proof (pos_INR L). pose proof (pos_INR m). apply Rdiv_lt_0_compat; nra. Qed.

Theorem independent l : forall gc gs,
  (forall v, dsum l (fun m => gc m * tc l m v) (fun m => gs m * ts l m v) = 0) ->
  (forall m, (m <= l)%nat -> gc m = 0) /\ (forall m, (0 < m <= l)%nat -> gs m = 0).
Proof.
  assert (S2 : 0 < sqrt 2) by (apply sqrt_lt_R0; lra).
  induction l as [|L IH]; intros gc gs H.
  - split; [|lia]. intros m Hm. assert (m = O) by lia. subst m.
    specialize (H (0, 0, 0)). unfold dsum in H. simpl rsum in H. unfold tc, Hc in H. rewrite Q_diag in H. simpl ck in H. simpl dfact in H.
    pose proof (nk_pos 0 0). apply Rmult_eq_reg_r with (/ 2 * (sqrt 2 * nk 0 0)); [|apply Rgt_not_eq; nra]. nra.
  - pose proof (pos_INR L) as PL.
    assert (EZ : forall v, dsum L (fun m => (gc m * al L m) * tc L m v) (fun m => (gs m * al L m) * ts L m v) = 0).
    { intros v.
      assert (D1 : ddir (fun x => dsum (S L) (fun m => gc m * tc (S L) m x) (fun m => gs m * ts (S L) m x)) v (0, 0, 1)
                     (dsum (S L) (fun m => gc m * dtc (S L) m (0, 0, 1) v) (fun m => gs m * dts (S L) m (0, 0, 1) v))).
      { apply (ddir_dsum (S L) (fun m x => gc m * tc (S L) m x) (fun m x => gs m * ts (S L) m x));
          intros k _; apply ddir_scal; [apply tc_deriv|apply ts_deriv]. }
      assert (D2 : ddir (fun x => dsum (S L) (fun m => gc m * tc (S L) m x) (fun m => gs m * ts (S L) m x)) v (0, 0, 1) 0).
      { apply ddir_ext with (fun _ => 0); [|apply ddir_const]. intros x. symmetry. apply H. }
      pose proof (ddir_unique _ _ _ _ _ D1 D2) as E.
      rewrite (dsum_ext (S L) _ _ (fun m => (2 * INR L + 3) * ((gc m * al L m) * tc L m v)) (fun m => (2 * INR L + 3) * ((gs m * al L m) * ts L m v))) in E.
      - rewrite dsum_scal in E.
        apply Rmult_integral in E. destruct E as [E|E]; [lra|].
        unfold dsum in E. simpl rsum in E. rewrite al_end in E. unfold dsum. lra.
      - intros k Hk. rewrite dtc_row by lia. unfold rowc. destruct k; unfold vx, vy, vz; simpl fst; simpl snd; ring.
      - intros k Hk. rewrite dts_row by lia. unfold rows_. destruct k; unfold vx, vy, vz; simpl fst; simpl snd; [lia|ring]. }
    destruct (IH _ _ EZ) as [C0 S0].
    assert (C1 : forall m, (m <= L)%nat -> gc m = 0).
    { intros m Hm. specialize (C0 m Hm). apply Rmult_integral in C0. destruct C0; auto. pose proof (al_pos L m Hm). lra. }
    assert (S1 : forall m, (0 < m <= L)%nat -> gs m = 0).
    { intros m Hm. specialize (S0 m Hm). apply Rmult_integral in S0. destruct S0; auto. pose proof (al_pos L m ltac:(lia)). lra. }
    assert (T : forall v, gc (S L) * tc (S L) (S L) v + gs (S L) * ts (S L) (S L) v = 0).
    { intros v. specialize (H v). unfold dsum in H. simpl rsum in H. rewrite C1 in H by lia.
      rewrite rsum_0 in H. { lra. }
      intros k Hk. rewrite C1, S1 by lia. ring. }
    assert (V : forall a, gc (S L) * cos (INR (S L) * a) + gs (S L) * sin (INR (S L) * a) = 0).
    { intros a. specialize (T (cos a, sin a, 0)). unfold tc, ts, Hc, Hs in T. rewrite Q_diag in T.
      unfold vx, vy in T. simpl fst in T. simpl snd in T. destruct (ck_polar (S L) a) as [E1 E2].
      rewrite E1, E2 in T. pose proof (nk_pos (S L) (S L)). pose proof (dfact_pos (S L)).
      apply Rmult_eq_reg_l with (sqrt 2 * nk (S L) (S L) * dfact (S L)); [lra|].
      apply Rgt_not_eq. apply Rmult_lt_0_compat; [apply Rmult_lt_0_compat|]; auto. }
    assert (GC : gc (S L) = 0).
    { pose proof (V 0) as E. rewrite Rmult_0_r, cos_0, sin_0 in E. lra. }
    assert (GS : gs (S L) = 0).
    { assert (NZ : INR (S L) <> 0) by (rewrite S_INR; lra).
      pose proof (V (PI / 2 / INR (S L))) as E. replace (INR (S L) * (PI / 2 / INR (S L))) with (PI / 2) in E by (field; auto).
      rewrite cos_PI2, sin_PI2 in E. lra. }
    split.
    + intros m Hm. destruct (Nat.eq_dec m (S L)) as [->|N]; auto. apply C1. lia.
    + intros m Hm. destruct (Nat.eq_dec m (S L)) as [->|N]; auto. apply S1. lia.
Qed.

(** * Values on the sphere: Q(z, 1) are the derivatives of the Legendre polynomials *)
Lemma leg2_q2 n x : leg2 n x = q2 0 n x 1.
Proof.
  induction n as [|n IH]; [reflexivity|]. simpl leg2. simpl q2. rewrite IH. destruct (q2 0 n x 1) as [a b].
  f_equal. f_equal. replace (n + 0)%nat with n by lia. replace (n + 0)%nat with n by lia. ring_simplify. 
  replace (0 + n)%nat with n by lia. ring.
Qed.
Lemma legendre_Q n x : eval_legendre n x = Q n 0 x 1.
Proof. unfold eval_legendre, Q. simpl Nat.leb. rewrite Nat.sub_0_r, leg2_q2. reflexivity. Qed.
Lemma lpmv2_q2 m k x : lpmv2 m k x =
  ((-1) ^ m * sqrt (1 - x * x) ^ m * fst (q2 m k x 1), (-1) ^ m * sqrt (1 - x * x) ^ m * snd (q2 m k x 1)).
Proof.
  induction k as [|k IH].
  - simpl. f_equal; ring.
  - simpl. rewrite IH. destruct (q2 m k x 1) as [a b]. simpl fst. simpl snd.
    pose proof (pos_INR k). f_equal. field. lra.
Qed.
Lemma lpmv_Q m n x : lpmv m n x = (-1) ^ m * sqrt (1 - x * x) ^ m * Q n m x 1.
Proof. unfold lpmv, Q. destruct (Nat.leb m n); [|ring]. rewrite lpmv2_q2. reflexivity. Qed.

Lemma Q_one l m z s : s = 1 -> Q l m z s = Q l m z 1. Proof. intros ->. reflexivity. Qed.
