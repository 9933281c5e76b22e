(** Norms and panning gains. *)
From Verif Require Import Base BaseFacts M_utils M_sig M_process M_decoder S_decoder.
Open Scope R_scope.

Lemma np_pow_abs p x : 0 < p -> np_pow (Rabs x) p = abs_pow p x.
Proof.
  intro H. unfold np_pow, abs_pow. destruct (Req_EM_T x 0) as [->|n].
  - rewrite Rabs_R0. unfold Reqb. destruct (Req_EM_T 0 0); [|lra].
    destruct (Req_EM_T p 0); [lra|reflexivity].
  - unfold Reqb. destruct (Req_EM_T (Rabs x) 0) as [e|]; [|reflexivity].
    exfalso. apply (Rabs_no_R0 x n e).
Qed.
Lemma abs_pow_nonneg p x : 0 <= abs_pow p x.
Proof. unfold abs_pow. destruct (Req_EM_T x 0); [lra|]. left. apply exp_pos. Qed.
Lemma abs_pow_zero p x : abs_pow p x = 0 -> x = 0.
Proof. unfold abs_pow. destruct (Req_EM_T x 0); auto. intro H. pose proof (exp_pos (p * ln (Rabs x))). lra. Qed.
Lemma abs_pow_scale p k x : 0 < k -> abs_pow p (k * x) = exp (p * ln k) * abs_pow p x.
Proof.
  intro H. unfold abs_pow. destruct (Req_EM_T x 0) as [->|n].
  - rewrite Rmult_0_r. destruct (Req_EM_T 0 0); lra.
  - destruct (Req_EM_T (k * x) 0) as [e|].
    + exfalso. apply Rmult_integral in e. destruct e; lra.
    + rewrite Rabs_mult, (Rabs_right k) by lra. rewrite ln_mult; [|lra|apply Rabs_pos_lt; exact n].
      rewrite <- exp_plus. f_equal. ring.
Qed.
Lemma lsum_abs_nonneg p l : 0 <= lsum (map (abs_pow p) l).
Proof. induction l; simpl; [lra|]. pose proof (abs_pow_nonneg p a). lra. Qed.
Lemma lsum_abs_zero p l : lsum (map (abs_pow p) l) = 0 <-> (forall x, In x l -> x = 0).
Proof.
  split.
  - induction l; simpl; intros H x I; [contradiction|].
    pose proof (abs_pow_nonneg p a). pose proof (lsum_abs_nonneg p l).
    destruct I as [<-|I]; [apply (abs_pow_zero p); lra|]. apply IHl; auto; lra.
  - induction l; simpl; intro H; [reflexivity|].
    rewrite IHl by auto. rewrite (H a) by auto. unfold abs_pow. destruct (Req_EM_T 0 0); lra.
Qed.
Lemma vnorm_p p l : 0 < p -> vnorm (POrd p) l = np_pow (lsum (map (abs_pow p) l)) (1 / p).
Proof. intro H. cbn. f_equal. f_equal. apply map_ext. intro x. apply np_pow_abs, H. Qed.
Lemma inv_pos p : 0 < p -> 1 / p <> 0.
Proof. intro H. unfold Rdiv. rewrite Rmult_1_l. apply Rinv_neq_0_compat. lra. Qed.
Lemma maxabs_nonneg l : 0 <= fold_right Rmax 0 (map Rabs l).
Proof. induction l; simpl; [lra|]. eapply Rle_trans; [exact IHl|apply Rmax_r]. Qed.
Lemma maxabs_ge l x : In x l -> Rabs x <= fold_right Rmax 0 (map Rabs l).
Proof.
  induction l; simpl; [contradiction|]. intros [<-|H]; [apply Rmax_l|].
  eapply Rle_trans; [apply IHl, H|apply Rmax_r].
Qed.
Lemma maxabs_in l : fold_right Rmax 0 (map Rabs l) = 0 \/ exists x, In x l /\ Rabs x = fold_right Rmax 0 (map Rabs l).
Proof.
  induction l; simpl; [auto|]. unfold Rmax at 1 3. destruct (Rle_dec (Rabs a) _) as [H|H].
  - destruct IHl as [E|[x [I E]]]; [left; exact E|right; exists x; auto].
  - right. exists a. auto.
Qed.
Lemma maxabs_scale k l : 0 < k -> fold_right Rmax 0 (map Rabs (map (Rmult k) l)) = k * fold_right Rmax 0 (map Rabs l).
Proof.
  intro H. induction l; simpl; [ring|]. rewrite IHl, Rabs_mult, (Rabs_right k) by lra. apply RmaxRmult. lra.
Qed.

Lemma vnorm_nonneg o l : norm_order o -> 0 <= vnorm o l.
Proof.
  destruct o as [p|]; intro H; [|apply maxabs_nonneg].
  rewrite vnorm_p by exact H. unfold np_pow. destruct (Reqb _ 0).
  - destruct (Reqb (1/p) 0); lra.
  - left. apply exp_pos.
Qed.
Lemma vnorm_zero o l : norm_order o -> (vnorm o l = 0 <-> (forall x, In x l -> x = 0)).
Proof.
  destruct o as [p|]; intro H.
  - cbn in H. rewrite vnorm_p by exact H. rewrite <- (lsum_abs_zero p). unfold np_pow.
    unfold Reqb. destruct (Req_EM_T (lsum (map (abs_pow p) l)) 0) as [e|n].
    + pose proof (inv_pos p H). destruct (Req_EM_T (1/p) 0); [contradiction|]. tauto.
    + split; intro K; [|contradiction]. unfold Rpower in K. pose proof (exp_pos (1/p * ln (lsum (map (abs_pow p) l)))). lra.
  - cbn. split.
    + intros E x I. pose proof (maxabs_ge l x I). pose proof (Rabs_pos x). destruct (Req_EM_T x 0) as [e|n]; auto. pose proof (Rabs_pos_lt x n). lra.
    + intro K. destruct (maxabs_in l) as [E|[x [I E]]]; auto. rewrite <- E, (K x I). apply Rabs_R0.
Qed.
Lemma vnorm_scale o k l : norm_order o -> 0 < k -> vnorm o (map (Rmult k) l) = k * vnorm o l.
Proof.
  destruct o as [p|]; intros H K; [|apply maxabs_scale, K].
  cbn in H. rewrite !vnorm_p by exact H. rewrite map_map.
  rewrite (map_ext _ (fun x => exp (p * ln k) * abs_pow p x)) by (intro; apply abs_pow_scale, K).
  assert (E : lsum (map (fun x => exp (p * ln k) * abs_pow p x) l) = exp (p * ln k) * lsum (map (abs_pow p) l))
    by (induction l; simpl; [ring|rewrite IHl; ring]).
  rewrite E. set (s := lsum _). unfold np_pow, Reqb.
  assert (s0 : 0 <= s) by apply lsum_abs_nonneg. pose proof (inv_pos p H) as IP.
  pose proof (exp_pos (p * ln k)) as EP.
  destruct (Req_EM_T s 0) as [e|n].
  - rewrite e, Rmult_0_r. destruct (Req_EM_T 0 0); [|lra]. destruct (Req_EM_T (1/p) 0); [contradiction|ring].
  - destruct (Req_EM_T (exp (p * ln k) * s) 0) as [e|m].
    + apply Rmult_integral in e. destruct e; [lra|contradiction].
    + unfold Rpower. rewrite ln_mult by lra. rewrite ln_exp.
      replace (1 / p * (p * ln k + ln s)) with (ln k + 1 / p * ln s) by (field; lra).
      rewrite exp_plus, exp_ln by exact K. reflexivity.
Qed.
Lemma unit_norm_iff o l : norm_order o -> (unit_norm o l <-> vnorm o l = 1).
Proof.
  destruct o as [p|]; intro H.
  - cbn [unit_norm]. cbn in H. rewrite vnorm_p by exact H. set (s := lsum _).
    assert (s0 : 0 <= s) by apply lsum_abs_nonneg. unfold np_pow, Reqb.
    destruct (Req_EM_T s 0) as [e|n].
    + pose proof (inv_pos p H). destruct (Req_EM_T (1/p) 0); [contradiction|]. split; intro; lra.
    + unfold Rpower. split.
      * intros ->. rewrite ln_1, Rmult_0_r. apply exp_0.
      * intro E. assert (L : 1 / p * ln s = 0) by (rewrite <- (ln_exp (1/p * ln s)), E; apply ln_1).
        apply Rmult_integral in L. destruct L as [L|L]; [exfalso; apply (inv_pos p H L)|].
        rewrite <- (exp_ln s) by lra. rewrite L. apply exp_0.
  - cbn. split.
    + intros [A [x [I E]]]. apply Rle_antisym.
      * destruct (maxabs_in l) as [Z0|[y [J Ey]]]; [lra|]. rewrite <- Ey. apply A, J.
      * rewrite <- E. apply maxabs_ge, I.
    + intro E. split.
      * intros x I. rewrite <- E. apply maxabs_ge, I.
      * destruct (maxabs_in l) as [Z0|[y [J Ey]]]; [lra|]. exists y. split; auto. lra.
Qed.
Lemma unit_norm_two l : unit_norm (POrd 2) l <-> lsum (map (fun x => x * x) l) = 1.
Proof.
  cbn. rewrite (map_ext (abs_pow 2) (fun x => x * x)); [tauto|].
  intro x. unfold abs_pow. destruct (Req_EM_T x 0) as [->|n]; [ring|].
  replace (2 * ln (Rabs x)) with (ln (Rabs x) + ln (Rabs x)) by ring.
  rewrite exp_plus, exp_ln by (apply Rabs_pos_lt, n). rewrite <- Rabs_mult. apply Rabs_right.
  apply Rle_ge. apply Rle_0_sqr.
Qed.

(** * One face *)
Definition adj3 (V : M3) : M3 :=
  (tr3 (cross3 (row2 V) (row3 V), cross3 (row3 V) (row1 V), cross3 (row1 V) (row2 V))).
Ltac crush3 := repeat match goal with v : M3 |- _ => destruct v as [[? ?] ?] | v : V3 |- _ => destruct v as [[? ?] ?] end;
  cbv [adj3 tr3 mm3 mv3 mscal3 eye3 det3 cross3 dot3 scal3 add3 sub3 row1 row2 row3 vx vy vz fst snd] in *.
Ltac tuple3 := repeat match goal with |- (_, _) = (_, _) => apply f_equal2 end; cbn [fst snd].
Lemma adj_left V : mm3 (adj3 V) V = mscal3 (det3 V) eye3.
Proof. intros; crush3; tuple3; ring. Qed.
Lemma mm3_assoc A B C : mm3 (mm3 A B) C = mm3 A (mm3 B C).
Proof. intros; crush3; tuple3; ring. Qed.
Lemma mm3_eye_r A : mm3 A eye3 = A.
Proof. intros; crush3; tuple3; ring. Qed.
Lemma mm3_eye_l A : mm3 eye3 A = A.
Proof. intros; crush3; tuple3; ring. Qed.
Lemma mscal_mm a A B : mm3 (mscal3 a A) B = mscal3 a (mm3 A B).
Proof. intros; crush3; tuple3; ring. Qed.
Lemma mm_mscal a A B : mm3 A (mscal3 a B) = mscal3 a (mm3 A B).
Proof. intros; crush3; tuple3; ring. Qed.
Lemma mscal_mscal a b A : mscal3 a (mscal3 b A) = mscal3 (a * b) A.
Proof. intros; crush3; tuple3; ring. Qed.
Lemma mscal_1 A : mscal3 1 A = A.
Proof. intros; crush3; tuple3; ring. Qed.
Lemma right_left V X : det3 V <> 0 -> mm3 V X = eye3 -> mm3 X V = eye3.
Proof.
  intros D H.
  assert (E : mscal3 (det3 V) X = adj3 V).
  { rewrite <- (mm3_eye_r (adj3 V)), <- H, <- mm3_assoc, adj_left, mscal_mm, mm3_eye_l. reflexivity. }
  assert (E2 : X = mscal3 (/ det3 V) (adj3 V)).
  { rewrite <- E, mscal_mscal, Rinv_l, mscal_1 by exact D. reflexivity. }
  rewrite E2, mscal_mm, adj_left, mscal_mscal, Rinv_l, mscal_1 by exact D. reflexivity.
Qed.
Lemma adj_right V : mm3 V (adj3 V) = mscal3 (det3 V) eye3.
Proof. intros; crush3; tuple3; ring. Qed.
Lemma mv_mm A B v : mv3 (mm3 A B) v = mv3 A (mv3 B v).
Proof. intros; crush3; tuple3; ring. Qed.
Lemma tr_mm A B : tr3 (mm3 A B) = mm3 (tr3 B) (tr3 A).
Proof. intros; crush3; tuple3; ring. Qed.
Lemma tr_eye : tr3 eye3 = eye3.
Proof. reflexivity. Qed.
Lemma mv_eye v : mv3 eye3 v = v.
Proof. intros; crush3; tuple3; ring. Qed.
Lemma mv_scal A k v : mv3 A (scal3 k v) = scal3 k (mv3 A v).
Proof. intros; crush3; tuple3; ring. Qed.

Lemma combines_mv ps f g v : combines ps f g v <-> v = mv3 (tr3 (fpts ps f)) g.
Proof.
  destruct f as [[a b] c]. unfold combines, fpts, pt.
  generalize (nth a ps (0,0,0)), (nth b ps (0,0,0)), (nth c ps (0,0,0)). intros p q r.
  assert (E : add3 (scal3 (vx g) p) (add3 (scal3 (vy g) q) (scal3 (vz g) r)) = mv3 (tr3 (p, q, r)) g)
    by (crush3; tuple3; ring).
  rewrite E. tauto.
Qed.
Lemma independent_det ps f : independent ps f <-> det3 (fpts ps f) <> 0.
Proof. destruct f as [[a b] c]. unfold independent, det3, fpts, pt, row1, row2, row3. cbn. tauto. Qed.

Section OneFace.
Variables (lstsq3 : M3 -> M3) (o : nord).
Hypotheses (LC : lstsq3_contract lstsq3) (NO : norm_order o).

Lemma base_inverse ps f g v : independent ps f ->
  (combines ps f g v <-> g = mv3 (tr3 (lstsq3 (fpts ps f))) v).
Proof.
  intro I. apply independent_det in I. pose proof (LC _ I) as R. pose proof (right_left _ _ I R) as Lf.
  rewrite combines_mv. split; intros ->.
  - rewrite <- mv_mm, <- tr_mm, R, tr_eye, mv_eye. reflexivity.
  - rewrite <- mv_mm, <- tr_mm, Lf, tr_eye, mv_eye. reflexivity.
Qed.
Lemma v3l_scal k g : v3l (scal3 k g) = map (Rmult k) (v3l g).
Proof. reflexivity. Qed.
Lemma tol : - (10 / 1000000) = - (1 / 100000).
Proof. field. Qed.
Lemma face_gains_pans ps f src g : independent ps f ->
  (face_gains o (tr3 (lstsq3 (fpts ps f))) src = Some g <-> pans o ps f src g).
Proof.
  intro I. unfold face_gains, pans. set (p := mv3 _ src).
  assert (U : unit_norm o [vx g; vy g; vz g] <-> vnorm o (v3l g) = 1) by (apply unit_norm_iff, NO).
  rewrite U. clear U. rewrite tol.
  unfold Reqb. destruct (Req_EM_T (vnorm o (v3l p)) 0) as [e|n].
  - split; [discriminate|]. intros [Un [_ [k [K C]]]]. exfalso.
    apply (base_inverse ps f g (scal3 k src) I) in C. rewrite mv_scal in C. fold p in C.
    rewrite C, v3l_scal, vnorm_scale, e in Un by assumption. lra.
  - assert (np : 0 < vnorm o (v3l p)) by (pose proof (vnorm_nonneg o (v3l p) NO); lra).
    set (q := (vx p / vnorm o (v3l p), vy p / vnorm o (v3l p), vz p / vnorm o (v3l p))).
    assert (Q : q = scal3 (/ vnorm o (v3l p)) p) by (unfold q, scal3; tuple3; field; auto).
    assert (K : 0 < / vnorm o (v3l p)) by (apply Rinv_0_lt_compat, np).
    split.
    + intro H.
      assert (G : (Rltb (- (1 / 100000)) (vx q) && Rltb (- (1 / 100000)) (vy q) && Rltb (- (1 / 100000)) (vz q))%bool = true /\ q = g).
      { destruct (Rltb (- (1 / 100000)) (vx q) && Rltb (- (1 / 100000)) (vy q) && Rltb (- (1 / 100000)) (vz q))%bool eqn:T; [|discriminate H].
        split; auto. injection H. auto. }
      destruct G as [T <-]. apply andb_prop in T. destruct T as [T T3]. apply andb_prop in T. destruct T as [T1 T2].
      apply Rltb_true in T1, T2, T3. split.
      * rewrite Q, v3l_scal, vnorm_scale by assumption. field. auto.
      * split; [auto|]. exists (/ vnorm o (v3l p)). split; [exact K|].
        apply (base_inverse _ _ _ _ I). rewrite mv_scal. fold p. exact Q.
    + intros [Un [[T1 [T2 T3]] [k [Kp C]]]].
      apply (base_inverse ps f g (scal3 k src) I) in C. rewrite mv_scal in C. fold p in C.
      assert (k = / vnorm o (v3l p)).
      { rewrite C, v3l_scal, vnorm_scale in Un by assumption. rewrite <- (Rmult_1_l (/ vnorm o (v3l p))).
        rewrite <- Un. field. auto. }
      subst k. rewrite <- Q in C. subst g.
      apply Rltb_true in T1, T2, T3. unfold q in T1, T2, T3 |- *. rewrite T1, T2, T3. reflexivity.
Qed.
Lemma cone_pans ps f src : independent ps f -> inside_cone ps f src -> exists g, pans o ps f src g.
Proof.
  intros I [N [g [G1 [G2 [G3 C]]]]].
  assert (nz : vnorm o (v3l g) <> 0).
  { intro E0. pose proof (proj1 (vnorm_zero o (v3l g) NO) E0) as E. apply N.
    apply combines_mv in C. rewrite C.
    assert (vx g = 0) by (apply E; cbn; auto).
    assert (vy g = 0) by (apply E; cbn; auto). assert (vz g = 0) by (apply E; cbn; auto).
    destruct g as [[g1 g2] g3]. unfold vx, vy, vz in *. cbn in *. subst.
    generalize (tr3 (fpts ps f)). intro M. crush3; tuple3; ring. }
  pose proof (vnorm_nonneg o (v3l g) NO) as nn.
  assert (K : 0 < / vnorm o (v3l g)) by (apply Rinv_0_lt_compat; lra).
  exists (scal3 (/ vnorm o (v3l g)) g). split; [|split].
  - apply unit_norm_iff; [exact NO|]. change (vnorm o (v3l (scal3 (/ vnorm o (v3l g)) g)) = 1).
    rewrite v3l_scal, vnorm_scale by assumption. field. exact nz.
  - pose proof (Rmult_le_pos _ _ (Rlt_le _ _ K) G1). pose proof (Rmult_le_pos _ _ (Rlt_le _ _ K) G2).
    pose proof (Rmult_le_pos _ _ (Rlt_le _ _ K) G3). unfold scal3. unfold vx, vy, vz in *. cbn in *. lra.
  - exists (/ vnorm o (v3l g)). split; [exact K|]. apply combines_mv. apply combines_mv in C.
    rewrite mv_scal, <- C. reflexivity.
Qed.
End OneFace.
Lemma face_gains_scale o base src k : norm_order o -> 0 < k -> face_gains o base (scal3 k src) = face_gains o base src.
Proof.
  intros NO K. unfold face_gains. rewrite mv_scal, v3l_scal, vnorm_scale by assumption.
  set (p := mv3 base src). unfold Reqb. destruct (Req_EM_T (vnorm o (v3l p)) 0) as [e|n].
  - rewrite e, Rmult_0_r. destruct (Req_EM_T 0 0); [reflexivity|lra].
  - destruct (Req_EM_T (k * vnorm o (v3l p)) 0) as [e|].
    { apply Rmult_integral in e. destruct e; [lra|contradiction]. }
    assert (E : (vx (scal3 k p) / (k * vnorm o (v3l p)), vy (scal3 k p) / (k * vnorm o (v3l p)), vz (scal3 k p) / (k * vnorm o (v3l p)))
              = (vx p / vnorm o (v3l p), vy p / vnorm o (v3l p), vz p / vnorm o (v3l p))).
    { unfold scal3. unfold vx, vy, vz. cbn. tuple3; field; split; auto; lra. }
    rewrite E. reflexivity.
Qed.
