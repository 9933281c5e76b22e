(** Multiplication of harmonics by coordinates; Gram matrix on spherical designs;
    products of harmonics. *)
From Verif Require Import Base BaseFacts M_sph0 P_sph1 P_sph2 P_sph3 P_sph4 P_sph5.
Open Scope R_scope.

(** raising coefficients: order L, degree a -> order L+1, degree m, along w *)
Definition Cw (w : V3) (L : nat) (m a : Z) : R := rowP L m (fun i b => comp w i * zdelta b a).

Lemma Yz_out L m v : (Z.of_nat L < Z.abs m)%Z -> Yz L m v = 0.
Proof.
  intros H. destruct (zcases m) as [->|[[k ->]|[k ->]]]; [lia| |].
  - rewrite Yz_pos. apply tc_lt. lia.
  - rewrite Yz_neg. apply ts_lt. lia.
Qed.

Lemma rowc_ext_ L w m gc gs gc' gs' : (forall k, gc k = gc' k) -> (forall k, gs k = gs' k) -> rowc L w m gc gs = rowc L w m gc' gs'.
Proof. intros H K. unfold rowc. destruct m; rewrite !H, !K; reflexivity. Qed.
Lemma rows_ext_ L w m gc gs gc' gs' : (forall k, gc k = gc' k) -> (forall k, gs k = gs' k) -> rows_ L w m gc gs = rows_ L w m gc' gs'.
Proof. intros H K. unfold rows_. destruct m; rewrite ?H, ?K; reflexivity. Qed.

Lemma Pi_raise L a w v : (Z.abs a <= Z.of_nat L)%Z ->
  Pi_ L a w v = zs (S L) (fun m => Cw w L m a * Yz (S L) m v).
Proof.
  intros H. pose proof (swapZ L w v (fun b => zdelta b a)) as E. cbv beta in E.
  rewrite (zs_delta L a (fun b => Pi_ L b w v)) in E by auto. rewrite E. apply zs_ext. intros m _. unfold Cw. ring.
Qed.

Lemma rowP_zs L m n (P : Z -> Z -> Z -> R) :
  rowP L m (fun i b => zs n (fun a => P a i b)) = zs n (fun a => rowP L m (P a)).
Proof.
  assert (E : forall k (F : nat -> Z -> Z -> R), rowP L m (fun i b => rsum k (fun a => F a i b)) = rsum k (fun a => rowP L m (F a))).
  { intros k F. induction k as [|k IH]; simpl rsum.
    - rewrite (rowP_ext L m _ (fun i b => 0 * 0 + 0 * 0)) by (intros; ring).
      rewrite (rowP_lin L m (fun _ _ => 0) (fun _ _ => 0)). ring.
    - rewrite <- IH. rewrite (rowP_ext L m _ (fun i b => 1 * rsum k (fun a => F a i b) + 1 * F k i b)) by (intros; ring).
      rewrite (rowP_lin L m (fun i b => rsum k (fun a => F a i b)) (F k)). ring. }
  unfold zs. apply (E _ (fun j => P (Z.of_nat j - Z.of_nat n)%Z)).
Qed.

Lemma dYz_lower L m w v : (Z.abs m <= Z.of_nat (S L))%Z ->
  dYz (S L) m w v = (2 * INR L + 3) * zs L (fun a => Cw w L m a * Yz L a v).
Proof.
  intros H.
  assert (E : dYz (S L) m w v = (2 * INR L + 3) * rowP L m (fun i b => comp w i * Yz L b v)).
  { destruct (zcases m) as [->|[[k ->]|[k ->]]].
    - rewrite rowP_0. unfold dYz. cbn [Z.eqb Z.abs_nat]. rewrite dtc_row by lia.
      rewrite (rowc_ext_ L w 0 (gcz (fun b => Yz L b v)) (gsz (fun b => Yz L b v)) (fun k => tc L k v) (fun k => ts L k v)).
      + unfold Rdiv. ring.
      + intros [|k]; unfold gcz; [rewrite Yz_0; pose proof sqrt2_pos; field; lra|rewrite Yz_pos; auto].
      + intros [|k]; unfold gsz; [rewrite ts_0; auto|rewrite Yz_neg; auto].
    - rewrite rowP_pos, dYz_pos, dtc_row by lia. f_equal. symmetry. apply rowc_ext_.
      + intros [|j]; unfold gcz; [rewrite Yz_0; pose proof sqrt2_pos; field; lra|rewrite Yz_pos; auto].
      + intros [|j]; unfold gsz; [rewrite ts_0; auto|rewrite Yz_neg; auto].
    - rewrite rowP_neg, dYz_neg, dts_row by lia. f_equal. symmetry. apply rows_ext_.
      + intros [|j]; unfold gcz; [rewrite Yz_0; pose proof sqrt2_pos; field; lra|rewrite Yz_pos; auto].
      + intros [|j]; unfold gsz; [rewrite ts_0; auto|rewrite Yz_neg; auto]. }
  rewrite E. f_equal.
  rewrite (rowP_ext L m _ (fun i b => zs L (fun a => Yz L a v * (comp w i * zdelta b a)))).
  - rewrite (rowP_zs L m L (fun a i b => Yz L a v * (comp w i * zdelta b a))). apply zs_ext. intros a _.
    unfold Cw. rewrite (rowP_ext L m _ (fun i b => Yz L a v * (comp w i * zdelta b a) + 0 * 0)) by (intros; ring).
    rewrite (rowP_lin L m (fun i b => comp w i * zdelta b a) (fun _ _ => 0)). ring.
  - intros i b. destruct (Z_le_gt_dec (Z.abs b) (Z.of_nat L)) as [Hb|Hb].
    + rewrite (zs_ext L _ (fun a => zdelta a b * (comp w i * Yz L a v))).
      * rewrite zs_delta by auto. reflexivity.
      * intros a _. unfold zdelta. rewrite Z.eqb_sym. ring.
    + rewrite Yz_out by lia. rewrite zs_0; [ring|]. intros a Ha. unfold zdelta. destruct (Z.eqb_spec b a); [lia|ring].
Qed.

Lemma dYz_00 w v : dYz 0 0 w v = 0.
Proof.
  apply ddir_unique with (Yz 0 0) v w; [apply Yz_deriv|].
  apply ddir_ext with (fun _ => sqrt 2 * nk 0 0 * dfact 0 / sqrt 2); [|apply ddir_const].
  intros x. rewrite Yz_0. unfold tc, Hc. rewrite Q_diag. simpl ck. f_equal. ring.
Qed.
Definition low (w : V3) (l : nat) (n : Z) (v : V3) : R :=
  match l with O => 0 | S k => zs k (fun c => Cw w k n c * Yz k c v) end.
Lemma mulw w l n v : (Z.abs n <= Z.of_nat l)%Z -> dot3 v v = 1 ->
  dot3 v w * Yz l n v = zs (S l) (fun m => Cw w l m n * Yz (S l) m v) + low w l n v.
Proof.
  intros H U. rewrite <- Pi_raise by auto. unfold Pi_. rewrite U. destruct l as [|k]; simpl low.
  - assert (n = 0%Z) by lia. subst n. rewrite dYz_00. ring.
  - rewrite dYz_lower by auto. rewrite S_INR. pose proof (pos_INR k). field. lra.
Qed.
Lemma Pi_minus_low w l n v : (Z.abs n <= Z.of_nat l)%Z -> dot3 v v = 1 -> Pi_ l n w v = dot3 v w * Yz l n v - low w l n v.
Proof. intros H U. rewrite mulw, Pi_raise by auto. ring. Qed.

(** every harmonic of order L+1 comes from order L *)
Lemma raise_exists L n : (Z.abs n <= Z.of_nat (S L))%Z ->
  exists w1 a1 w2 a2 s c, (Z.abs a1 <= Z.of_nat L)%Z /\ (Z.abs a2 <= Z.of_nat L)%Z /\ c <> 0 /\
    forall v, Pi_ L a1 w1 v + s * Pi_ L a2 w2 v = c * Yz (S L) n v.
Proof.
  intros H. pose proof sqrt2_pos as SP. destruct (Z_le_gt_dec (Z.abs n) (Z.of_nat L)) as [Hn|Hn].
  - exists ez, n, ez, n, 0, (al L (Z.abs_nat n)). split; auto. split; auto. split.
    + apply Rgt_not_eq, al_pos. lia.
    + intros v. rewrite Pi_ez by auto. ring.
  - assert (AP : 0 < aA L L) by apply aA_pos. destruct L as [|L].
    + assert (CS : n = 1%Z \/ n = (-1)%Z) by lia. destruct CS as [-> | ->].
      * exists ex, 0%Z, ex, 0%Z, 0, (aA 0 0 / sqrt 2). split; [lia|]. split; [lia|]. split.
        { apply Rgt_not_eq, Rdiv_lt_0_compat; auto. }
        intros v. rewrite Pi_0, pic_col0. change 1%Z with (Z.of_nat 1). rewrite Yz_pos. unfold ex, vx, vy, vz; cbn [fst snd]. field. lra.
      * exists ey, 0%Z, ey, 0%Z, 0, (aA 0 0 / sqrt 2). split; [lia|]. split; [lia|]. split.
        { apply Rgt_not_eq, Rdiv_lt_0_compat; auto. }
        intros v. rewrite Pi_0, pic_col0. change (-1)%Z with (- Z.of_nat 1)%Z. rewrite Yz_neg. unfold ey, vx, vy, vz; cbn [fst snd]. field. lra.
    + assert (CS : n = Z.of_nat (S (S L)) \/ n = (- Z.of_nat (S (S L)))%Z) by lia. destruct CS as [-> | ->].
      * exists ex, (Z.of_nat (S L)), ey, (- Z.of_nat (S L))%Z, (-1), (aA (S L) (S L)). split; [lia|]. split; [lia|]. split; [lra|].
        intros v. destruct (Pi_top (S L) L v eq_refl) as [E _]. rewrite <- E. ring.
      * exists ex, (- Z.of_nat (S L))%Z, ey, (Z.of_nat (S L))%Z, 1, (aA (S L) (S L)). split; [lia|]. split; [lia|]. split; [lra|].
        intros v. destruct (Pi_top (S L) L v eq_refl) as [_ E]. rewrite <- E. ring.
Qed.

(** ** quadratures *)
Definition quad (J : nat) (wt : nat -> R) (pt : nat -> V3) (f : V3 -> R) : R := rsum J (fun j => wt j * f (pt j)).
(** weights and points integrating every harmonic up to order t exactly *)
Definition exact_quad (t J : nat) (wt : nat -> R) (pt : nat -> V3) : Prop :=
  (forall j, (j < J)%nat -> dot3 (pt j) (pt j) = 1) /\ rsum J wt = 4 * PI /\
  forall l m, (1 <= l <= t)%nat -> (Z.abs m <= Z.of_nat l)%Z -> quad J wt pt (Yz l m) = 0.

Lemma quad_ext J wt pt f g : (forall j, (j < J)%nat -> f (pt j) = g (pt j)) -> quad J wt pt f = quad J wt pt g.
Proof. intros H. apply rsum_ext. intros j Hj. rewrite H by auto. reflexivity. Qed.
Lemma quad_plus J wt pt f g : quad J wt pt (fun v => f v + g v) = quad J wt pt f + quad J wt pt g.
Proof.
  unfold quad. rewrite <- (rsum_plus J (fun j => wt j * f (pt j)) (fun j => wt j * g (pt j))). apply rsum_ext. intros; ring.
Qed.
Lemma quad_scal J wt pt c f : quad J wt pt (fun v => c * f v) = c * quad J wt pt f.
Proof. unfold quad. rewrite <- rsum_scal. apply rsum_ext. intros; ring. Qed.
Lemma quad_rsum J wt pt n (F : nat -> V3 -> R) : quad J wt pt (fun v => rsum n (fun m => F m v)) = rsum n (fun m => quad J wt pt (F m)).
Proof.
  induction n as [|n IH]; simpl.
  - unfold quad. apply rsum_0. intros; ring.
  - rewrite <- IH. apply (quad_plus J wt pt (fun v => rsum n (fun m => F m v)) (F n)).
Qed.
Lemma quad_zs J wt pt n (F : Z -> V3 -> R) : quad J wt pt (fun v => zs n (fun m => F m v)) = zs n (fun m => quad J wt pt (F m)).
Proof. unfold zs. apply (quad_rsum J wt pt _ (fun i => F (Z.of_nat i - Z.of_nat n)%Z)). Qed.

Definition gram (J : nat) (wt : nat -> R) (pt : nat -> V3) (l : nat) (n : Z) (l' : nat) (n' : Z) : R :=
  quad J wt pt (fun v => Yz l n v * Yz l' n' v).
Definition kd (l : nat) (n : Z) (l' : nat) (n' : Z) : R := if Nat.eqb l l' then zdelta n n' else 0.

Lemma zs_kd l n k (c : Z -> R) : (Z.abs n <= Z.of_nat l)%Z -> zs k (fun m => c m * kd l n k m) = if Nat.eqb l k then c n else 0.
Proof.
  intros H. unfold kd. destruct (Nat.eqb_spec l k) as [->|D].
  - rewrite (zs_ext k _ (fun m => zdelta m n * c m)) by (intros; unfold zdelta; rewrite Z.eqb_sym; ring). apply zs_delta. auto.
  - apply zs_0. intros; ring.
Qed.

Lemma Yz00 v : Yz 0 0 v = / sqrt (4 * PI).
Proof.
  pose proof PI_RGT_0. pose proof sqrt2_pos. rewrite Yz_0. unfold tc, Hc. rewrite Q_diag. simpl ck. simpl dfact. unfold nk.
  replace ((2 * INR 0 + 1) / (4 * PI) * (INR (fact (0 - 0)) / INR (fact (0 + 0)))) with (/ (4 * PI)) by (simpl; field; lra).
  rewrite sqrt_inv. field. split; [apply Rgt_not_eq, sqrt_lt_R0; lra|lra].
Qed.

Theorem gram_exact t J wt pt : exact_quad t J wt pt ->
  forall l n l' n', (l + l' <= t)%nat -> (Z.abs n <= Z.of_nat l)%Z -> (Z.abs n' <= Z.of_nat l')%Z ->
  gram J wt pt l n l' n' = kd l n l' n'.
Proof.
  intros (HU & HT & HZ). pose proof PI_RGT_0 as PP.
  assert (S4 : 0 < sqrt (4 * PI)) by (apply sqrt_lt_R0; lra).
  assert (S4s : sqrt (4 * PI) * sqrt (4 * PI) = 4 * PI) by (apply sqrt_sqrt; lra).
  intros l. induction l as [l IH] using lt_wf_ind. intros n l' n' Ht Hn Hn'.
  destruct l as [|L].
  - assert (n = 0%Z) by lia. subst n. unfold gram.
    rewrite (quad_ext J wt pt _ (fun v => / sqrt (4 * PI) * Yz l' n' v)) by (intros; rewrite Yz00; reflexivity).
    rewrite quad_scal. unfold kd. destruct l' as [|l'].
    + assert (n' = 0%Z) by lia. subst n'. unfold quad. rewrite (rsum_ext J _ (fun j => wt j * / sqrt (4 * PI))) by (intros; rewrite Yz00; reflexivity).
      rewrite rsum_scal_r, HT. change (Nat.eqb 0 0) with true. unfold zdelta. change (0 =? 0)%Z with true. cbv iota.
      set (q := sqrt (4 * PI)) in *. clearbody q. rewrite <- S4s. field. lra.
    + rewrite HZ by lia. simpl. ring.
  - assert (ST : forall w a, (Z.abs a <= Z.of_nat L)%Z ->
      quad J wt pt (fun v => Pi_ L a w v * Yz l' n' v) = if Nat.eqb l' (S L) then Cw w L n' a else 0).
    { intros w a Ha.
      rewrite (quad_ext J wt pt _ (fun v => (zs (S l') (fun m => Cw w l' m n' * (Yz L a v * Yz (S l') m v))
            + match l' with O => 0 | S k => zs k (fun c => Cw w k n' c * (Yz L a v * Yz k c v)) end)
            + -1 * match L with O => 0 | S k => zs k (fun c => Cw w k a c * (Yz k c v * Yz l' n' v)) end)).
      2: { intros j Hj. specialize (HU j Hj). set (v := pt j) in *. rewrite Pi_minus_low by auto.
           transitivity (Yz L a v * (dot3 v w * Yz l' n' v) - low w L a v * Yz l' n' v); [ring|].
           rewrite mulw by auto.
           rewrite (zs_ext (S l') (fun m => Cw w l' m n' * (Yz L a v * Yz (S l') m v)) (fun m => Yz L a v * (Cw w l' m n' * Yz (S l') m v))) by (intros; ring).
           rewrite zs_scal. unfold low. destruct l' as [|k']; destruct L as [|k].
           - ring.
           - rewrite (zs_ext k (fun c => Cw w k a c * (Yz k c v * Yz 0 n' v)) (fun c => Yz 0 n' v * (Cw w k a c * Yz k c v))) by (intros; ring). rewrite zs_scal. ring.
           - rewrite (zs_ext k' (fun c => Cw w k' n' c * (Yz 0 a v * Yz k' c v)) (fun c => Yz 0 a v * (Cw w k' n' c * Yz k' c v))) by (intros; ring). rewrite zs_scal. ring.
           - rewrite (zs_ext k (fun c => Cw w k a c * (Yz k c v * Yz (S k') n' v)) (fun c => Yz (S k') n' v * (Cw w k a c * Yz k c v))) by (intros; ring).
             rewrite (zs_ext k' (fun c => Cw w k' n' c * (Yz (S k) a v * Yz k' c v)) (fun c => Yz (S k) a v * (Cw w k' n' c * Yz k' c v))) by (intros; ring).
             rewrite !zs_scal. ring. }
      rewrite (quad_plus J wt pt (fun v => zs (S l') (fun m => Cw w l' m n' * (Yz L a v * Yz (S l') m v))
            + match l' with O => 0 | S k => zs k (fun c => Cw w k n' c * (Yz L a v * Yz k c v)) end)
           (fun v => -1 * match L with O => 0 | S k => zs k (fun c => Cw w k a c * (Yz k c v * Yz l' n' v)) end)).
      rewrite (quad_plus J wt pt (fun v => zs (S l') (fun m => Cw w l' m n' * (Yz L a v * Yz (S l') m v)))
           (fun v => match l' with O => 0 | S k => zs k (fun c => Cw w k n' c * (Yz L a v * Yz k c v)) end)).
      assert (T1 : quad J wt pt (fun v => zs (S l') (fun m => Cw w l' m n' * (Yz L a v * Yz (S l') m v))) = if Nat.eqb L (S l') then Cw w l' a n' else 0).
      { rewrite (quad_zs J wt pt (S l') (fun m v => Cw w l' m n' * (Yz L a v * Yz (S l') m v))).
        rewrite <- (zs_kd L a (S l') (fun m => Cw w l' m n')) by auto. apply zs_ext. intros m Hm.
        rewrite quad_scal. f_equal. apply IH; auto; lia. }
      assert (T2 : quad J wt pt (fun v => match l' with O => 0 | S k => zs k (fun c => Cw w k n' c * (Yz L a v * Yz k c v)) end) = if Nat.eqb l' (S L) then Cw w L n' a else 0).
      { destruct l' as [|k]; [unfold quad; apply rsum_0; intros; ring|].
        rewrite (quad_zs J wt pt k (fun c v => Cw w k n' c * (Yz L a v * Yz k c v))).
        transitivity (if Nat.eqb L k then Cw w k n' a else 0).
        - rewrite <- (zs_kd L a k (fun c => Cw w k n' c)) by auto. apply zs_ext. intros m Hm. rewrite quad_scal. f_equal. apply IH; auto; lia.
        - simpl. rewrite Nat.eqb_sym. destruct (Nat.eqb_spec k L) as [->|]; auto. }
      assert (T3 : quad J wt pt (fun v => -1 * match L with O => 0 | S k => zs k (fun c => Cw w k a c * (Yz k c v * Yz l' n' v)) end) = - (if Nat.eqb L (S l') then Cw w l' a n' else 0)).
      { rewrite quad_scal. destruct L as [|k]; [simpl; unfold quad; rewrite rsum_0 by (intros; ring); ring|].
        rewrite (quad_zs J wt pt k (fun c v => Cw w k a c * (Yz k c v * Yz l' n' v))).
        replace (zs k (fun m => quad J wt pt (fun v => Cw w k a m * (Yz k m v * Yz l' n' v)))) with (if Nat.eqb k l' then Cw w k a n' else 0).
        - simpl. destruct (Nat.eqb_spec k l') as [->|]; ring.
        - transitivity (zs k (fun m => Cw w k a m * kd l' n' k m)).
          + rewrite zs_kd by auto. rewrite Nat.eqb_sym. destruct (Nat.eqb_spec l' k) as [->|]; auto.
          + apply zs_ext. intros m Hm. rewrite quad_scal. f_equal. 
            transitivity (kd k m l' n').
            * unfold kd. rewrite Nat.eqb_sym. unfold zdelta. rewrite Z.eqb_sym. reflexivity.
            * symmetry. apply IH; auto; lia. }
      rewrite T1, T2, T3. ring. }
    destruct (raise_exists L n Hn) as (w1 & a1 & w2 & a2 & s & c & Ha1 & Ha2 & Hc & E).
    assert (CO : forall m, (Z.abs m <= Z.of_nat (S L))%Z -> Cw w1 L m a1 + s * Cw w2 L m a2 = c * zdelta m n).
    { apply (zs_eq_coeff (S L) (fun m => Cw w1 L m a1 + s * Cw w2 L m a2) (fun m => c * zdelta m n)).
      intros v. transitivity (c * Yz (S L) n v).
      - rewrite <- E, !Pi_raise by auto. rewrite <- zs_scal, <- zs_plus. apply zs_ext. intros; ring.
      - rewrite (zs_ext (S L) _ (fun m => c * (zdelta m n * Yz (S L) m v))) by (intros; ring). rewrite zs_scal, zs_delta by auto. reflexivity. }
    apply Rmult_eq_reg_l with c; auto.
    transitivity (quad J wt pt (fun v => Pi_ L a1 w1 v * Yz l' n' v + s * (Pi_ L a2 w2 v * Yz l' n' v))).
    + unfold gram. rewrite <- quad_scal. apply quad_ext. intros j _. rewrite <- Rmult_assoc, <- E. ring.
    + rewrite (quad_plus J wt pt (fun v => Pi_ L a1 w1 v * Yz l' n' v) (fun v => s * (Pi_ L a2 w2 v * Yz l' n' v))), quad_scal, !ST by auto.
      unfold kd. rewrite (Nat.eqb_sym (S L) l'). destruct (Nat.eqb_spec l' (S L)) as [->|]; [|ring].
      rewrite CO by auto. unfold zdelta. rewrite Z.eqb_sym. reflexivity.
Qed.

(** ** products *)
Definition span (N : nat) (f : V3 -> R) : Prop :=
  exists c : nat -> Z -> R, forall v, dot3 v v = 1 -> f v = rsum (N + 1) (fun l => zs l (fun m => c l m * Yz l m v)).
Lemma span_ext N f g : (forall v, dot3 v v = 1 -> f v = g v) -> span N f -> span N g.
Proof. intros H [c Hc]. exists c. intros v U. rewrite <- H by auto. auto. Qed.
Lemma span_plus N f g : span N f -> span N g -> span N (fun v => f v + g v).
Proof.
  intros [c Hc] [d Hd]. exists (fun l m => c l m + d l m). intros v U. rewrite Hc, Hd by auto.
  rewrite <- (rsum_plus (N + 1) (fun l => zs l (fun m => c l m * Yz l m v)) (fun l => zs l (fun m => d l m * Yz l m v))).
  apply rsum_ext. intros l _. rewrite <- zs_plus. apply zs_ext. intros; ring.
Qed.
Lemma span_scal N k f : span N f -> span N (fun v => k * f v).
Proof.
  intros [c Hc]. exists (fun l m => k * c l m). intros v U. rewrite Hc by auto. rewrite <- rsum_scal. apply rsum_ext.
  intros l _. rewrite <- zs_scal. apply zs_ext. intros; ring.
Qed.
Lemma span_0 N : span N (fun _ => 0).
Proof. exists (fun _ _ => 0). intros v _. symmetry. apply rsum_0. intros l _. apply zs_0. intros; ring. Qed.
Lemma span_mono N N' f : (N <= N')%nat -> span N f -> span N' f.
Proof.
  intros H [c Hc]. exists (fun l m => if Nat.leb l N then c l m else 0). intros v U. rewrite Hc by auto.
  symmetry. rewrite (rsum_extend (N + 1) (N' + 1)); [|lia|].
  - apply rsum_ext. intros l Hl. apply zs_ext. intros m _. destruct (Nat.leb_spec l N); [reflexivity|lia].
  - intros l Hl. apply zs_0. intros m _. destruct (Nat.leb_spec l N); [lia|ring].
Qed.
Lemma span_rsum N n (F : nat -> V3 -> R) : (forall k, (k < n)%nat -> span N (F k)) -> span N (fun v => rsum n (fun k => F k v)).
Proof.
  induction n as [|n IH]; intros H; simpl; [apply span_0|]. apply (span_plus N (fun v => rsum n (fun k => F k v)) (F n)); [apply IH; auto|apply H; lia].
Qed.
Lemma span_zs N n (F : Z -> V3 -> R) : (forall m, (Z.abs m <= Z.of_nat n)%Z -> span N (F m)) -> span N (fun v => zs n (fun m => F m v)).
Proof. intros H. unfold zs. apply (span_rsum N _ (fun i => F (Z.of_nat i - Z.of_nat n)%Z)). intros; apply H; lia. Qed.
Lemma span_Yz N l n : (l <= N)%nat -> (Z.abs n <= Z.of_nat l)%Z -> span N (Yz l n).
Proof.
  intros Hl Hn. exists (fun l' m => kd l n l' m). intros v _. rewrite (rsum_single (N + 1) l); [|lia|].
  - rewrite (zs_ext l _ (fun m => Yz l m v * kd l n l m)) by (intros; ring). rewrite zs_kd, Nat.eqb_refl by auto. reflexivity.
  - intros l' _ D. rewrite (zs_ext l' _ (fun m => Yz l' m v * kd l n l' m)) by (intros; ring). rewrite zs_kd by auto.
    destruct (Nat.eqb_spec l l'); [lia|reflexivity].
Qed.
Lemma span_coord N w f : span N f -> span (S N) (fun v => dot3 v w * f v).
Proof.
  intros [c Hc].
  apply span_ext with (fun v => rsum (N + 1) (fun l => zs l (fun m => c l m * (zs (S l) (fun k => Cw w l k m * Yz (S l) k v) + low w l m v)))).
  - intros v U. rewrite Hc by auto. rewrite <- rsum_scal. apply rsum_ext. intros l _. rewrite <- zs_scal. apply zs_ext.
    intros m Hm. rewrite <- mulw by auto. ring.
  - apply (span_rsum (S N) (N + 1) (fun l v => zs l (fun m => c l m * (zs (S l) (fun k => Cw w l k m * Yz (S l) k v) + low w l m v)))).
    intros l Hl. apply (span_zs (S N) l (fun m v => c l m * (zs (S l) (fun k => Cw w l k m * Yz (S l) k v) + low w l m v))).
    intros m Hm. apply span_scal. apply span_plus.
    + apply (span_zs (S N) (S l) (fun k v => Cw w l k m * Yz (S l) k v)). intros k Hk. apply span_scal, span_Yz; auto. lia.
    + destruct l as [|k]; simpl low; [apply span_0|].
      apply (span_zs (S N) k (fun c0 v => Cw w k m c0 * Yz k c0 v)). intros j Hj. apply span_scal, span_Yz; auto. lia.
Qed.
Theorem span_mul_Yz l : forall n N g, (Z.abs n <= Z.of_nat l)%Z -> span N g -> span (N + l) (fun v => Yz l n v * g v).
Proof.
  induction l as [l IH] using lt_wf_ind. intros n N g Hn Hg. destruct l as [|L].
  - assert (n = 0%Z) by lia. subst n. apply span_ext with (fun v => / sqrt (4 * PI) * g v).
    + intros v _. rewrite Yz00. reflexivity.
    + replace (N + 0)%nat with N by lia. apply span_scal. auto.
  - destruct (raise_exists L n Hn) as (w1 & a1 & w2 & a2 & s & c & Ha1 & Ha2 & Hc & E).
    assert (PS : forall w a, (Z.abs a <= Z.of_nat L)%Z -> span (N + S L) (fun v => Pi_ L a w v * g v)).
    { intros w a Ha. apply span_ext with (fun v => dot3 v w * (Yz L a v * g v) + -1 * (low w L a v * g v)).
      - intros v U. rewrite Pi_minus_low by auto. ring.
      - apply span_plus.
        + replace (N + S L)%nat with (S (N + L)) by lia. apply (span_coord (N + L) w (fun v => Yz L a v * g v)). apply IH; auto.
        + apply span_scal. destruct L as [|k]; simpl low.
          * apply span_ext with (fun _ => 0); [intros; ring|apply span_0].
          * apply span_ext with (fun v => zs k (fun c0 => Cw w k a c0 * (Yz k c0 v * g v))).
            -- intros v _. rewrite (zs_ext k _ (fun c0 => g v * (Cw w k a c0 * Yz k c0 v))) by (intros; ring). rewrite zs_scal. ring.
            -- apply (span_zs _ k (fun c0 v => Cw w k a c0 * (Yz k c0 v * g v))). intros m Hm. apply span_scal.
               apply span_mono with (N + k)%nat; [lia|]. apply IH; auto; lia. }
    apply span_ext with (fun v => / c * (Pi_ L a1 w1 v * g v + s * (Pi_ L a2 w2 v * g v))).
    + intros v _. transitivity (/ c * (Pi_ L a1 w1 v + s * Pi_ L a2 w2 v) * g v); [ring|]. rewrite E. field. auto.
    + apply span_scal. apply span_plus; [apply PS; auto|apply span_scal, PS; auto].
Qed.
Theorem span_mul N N' f g : span N f -> span N' g -> span (N + N') (fun v => f v * g v).
Proof.
  intros [c Hc] Hg. apply span_ext with (fun v => rsum (N + 1) (fun l => zs l (fun m => c l m * (Yz l m v * g v)))).
  - intros v U. rewrite Hc by auto. rewrite <- rsum_scal_r. apply rsum_ext. intros l _. rewrite (Rmult_comm (zs l _)), <- zs_scal.
    apply zs_ext. intros; ring.
  - apply (span_rsum _ (N + 1) (fun l v => zs l (fun m => c l m * (Yz l m v * g v)))). intros l Hl.
    apply (span_zs _ l (fun m v => c l m * (Yz l m v * g v))). intros m Hm. apply span_scal.
    apply span_mono with (N' + l)%nat; [lia|]. apply span_mul_Yz; auto.
Qed.
