(** Real spherical harmonics with signed degree on all of R^3, and how they
    transform under an orthogonal map. *)
From Verif Require Import Base BaseFacts M_sph0 P_sph1 P_sph2 P_sph3 P_sph4.

Definition Yz (l : nat) (m : Z) (v : V3) : R :=
  if (m =? 0)%Z then tc l 0 v / sqrt 2
  else if (0 <? m)%Z then tc l (Z.abs_nat m) v else ts l (Z.abs_nat m) v.
Definition dYz (l : nat) (m : Z) (w v : V3) : R :=
  if (m =? 0)%Z then dtc l 0 w v / sqrt 2
  else if (0 <? m)%Z then dtc l (Z.abs_nat m) w v else dts l (Z.abs_nat m) w v.

Lemma sqrt2_pos : 0 < sqrt 2. Proof. apply sqrt_lt_R0; lra. Qed.
Lemma sqrt2_sq : sqrt 2 * sqrt 2 = 2. Proof. apply sqrt_sqrt; lra. Qed.
Lemma sqrt2_inv : / sqrt 2 = sqrt 2 / 2.
Proof. pose proof sqrt2_pos. pose proof sqrt2_sq. apply Rmult_eq_reg_l with (sqrt 2); [|lra]. rewrite Rinv_r by lra. lra. Qed.

Lemma Yz_0 l v : Yz l 0 v = tc l 0 v / sqrt 2. Proof. reflexivity. Qed.
Lemma Yz_pos l k v : Yz l (Z.of_nat (S k)) v = tc l (S k) v.
Proof. unfold Yz. destruct (Z.eqb_spec (Z.of_nat (S k)) 0); [lia|]. destruct (Z.ltb_spec 0 (Z.of_nat (S k))); [|lia].
  f_equal. lia. Qed.
Lemma Yz_neg l k v : Yz l (- Z.of_nat (S k)) v = ts l (S k) v.
Proof. unfold Yz. destruct (Z.eqb_spec (- Z.of_nat (S k)) 0); [lia|]. destruct (Z.ltb_spec 0 (- Z.of_nat (S k))); [lia|].
  f_equal. lia. Qed.
Lemma dYz_pos l k w v : dYz l (Z.of_nat (S k)) w v = dtc l (S k) w v.
Proof. unfold dYz. destruct (Z.eqb_spec (Z.of_nat (S k)) 0); [lia|]. destruct (Z.ltb_spec 0 (Z.of_nat (S k))); [|lia].
  f_equal. lia. Qed.
Lemma dYz_neg l k w v : dYz l (- Z.of_nat (S k)) w v = dts l (S k) w v.
Proof. unfold dYz. destruct (Z.eqb_spec (- Z.of_nat (S k)) 0); [lia|]. destruct (Z.ltb_spec 0 (- Z.of_nat (S k))); [lia|].
  f_equal. lia. Qed.

(** induction on a signed degree *)
Lemma zcases (m : Z) : m = 0%Z \/ (exists k, m = Z.of_nat (S k)) \/ (exists k, m = (- Z.of_nat (S k))%Z).
Proof.
  destruct (Z.lt_trichotomy m 0) as [H|[H|H]]; auto.
  - right; right. exists (Z.to_nat (- m) - 1)%nat. lia.
  - right; left. exists (Z.to_nat m - 1)%nat. lia.
Qed.

Lemma Yz_deriv l m v w : ddir (Yz l m) v w (dYz l m w v).
Proof.
  destruct (zcases m) as [->|[[k ->]|[k ->]]].
  - apply ddir_ext with (fun x => / sqrt 2 * tc l 0 x); [intros x; rewrite Yz_0; unfold Rdiv; ring|].
    unfold dYz. simpl. replace (dtc l 0 w v / sqrt 2) with (/ sqrt 2 * dtc l 0 w v) by (unfold Rdiv; ring).
    apply ddir_scal, tc_deriv.
  - apply ddir_ext with (tc l (S k)); [intros x; rewrite Yz_pos; reflexivity|]. rewrite dYz_pos. apply tc_deriv.
  - apply ddir_ext with (ts l (S k)); [intros x; rewrite Yz_neg; reflexivity|]. rewrite dYz_neg. apply ts_deriv.
Qed.

(** sums over the degrees -l .. l *)
Definition zs (l : nat) (f : Z -> R) : R := rsum (2 * l + 1) (fun i => f (Z.of_nat i - Z.of_nat l)%Z).
Lemma zs_ext l f g : (forall m, (Z.abs m <= Z.of_nat l)%Z -> f m = g m) -> zs l f = zs l g.
Proof. intros H. apply rsum_ext. intros i Hi. apply H. lia. Qed.
Lemma zs_scal l c f : zs l (fun m => c * f m) = c * zs l f.
Proof. unfold zs. apply (rsum_scal _ c (fun i => f (Z.of_nat i - Z.of_nat l)%Z)). Qed.
Lemma zs_plus l f g : zs l (fun m => f m + g m) = zs l f + zs l g.
Proof. unfold zs. apply (rsum_plus _ (fun i => f (Z.of_nat i - Z.of_nat l)%Z) (fun i => g (Z.of_nat i - Z.of_nat l)%Z)). Qed.
Lemma zs_0 l f : (forall m, (Z.abs m <= Z.of_nat l)%Z -> f m = 0) -> zs l f = 0.
Proof. intros H. apply rsum_0. intros i Hi. apply H. lia. Qed.
Lemma zs_swap l k f : zs l (fun a => zs k (fun b => f a b)) = zs k (fun b => zs l (fun a => f a b)).
Proof. unfold zs. apply rsum_swap. Qed.
Lemma zs_single l n f : (Z.abs n <= Z.of_nat l)%Z ->
  (forall m, (Z.abs m <= Z.of_nat l)%Z -> m <> n -> f m = 0) -> zs l f = f n.
Proof.
  intros Hn H. unfold zs. rewrite (rsum_single _ (Z.to_nat (n + Z.of_nat l))); [f_equal; lia|lia|].
  intros i Hi D. apply H; lia.
Qed.
Lemma zs_split l f : zs l f = f 0%Z + rsum l (fun k => f (Z.of_nat (S k)) + f (- Z.of_nat (S k))%Z).
Proof.
  unfold zs. replace (2 * l + 1)%nat with (l + S l)%nat by lia. rewrite rsum_app, rsum_shift, rsum_rev.
  rewrite (rsum_ext l (fun i => f (Z.of_nat (l - 1 - i) - Z.of_nat l)%Z) (fun k => f (- Z.of_nat (S k))%Z))
    by (intros i Hi; f_equal; lia).
  rewrite (rsum_ext l (fun i => f (Z.of_nat (l + S i) - Z.of_nat l)%Z) (fun k => f (Z.of_nat (S k))))
    by (intros i Hi; f_equal; lia).
  replace (Z.of_nat (l + 0) - Z.of_nat l)%Z with 0%Z by lia.
  rewrite (rsum_plus l (fun k => f (Z.of_nat (S k))) (fun k => f (- Z.of_nat (S k))%Z)). ring.
Qed.

(** coefficients over signed degrees, split into cosine and sine parts *)
Definition gcz (g : Z -> R) (k : nat) : R := match k with O => sqrt 2 * g 0%Z | _ => g (Z.of_nat k) end.
Definition gsz (g : Z -> R) (k : nat) : R := match k with O => 0 | _ => g (- Z.of_nat k)%Z end.

Lemma zs_dsum l g v :
  zs l (fun m => g m * Yz l m v) = dsum l (fun k => gcz g k * tc l k v) (fun k => gsz g k * ts l k v).
Proof.
  rewrite zs_split. unfold dsum. f_equal.
  - rewrite Yz_0. unfold gcz. pose proof sqrt2_pos. unfold Rdiv. rewrite sqrt2_inv. field_simplify.
    replace (sqrt 2) with (sqrt 2) by auto. field.
  - apply rsum_ext. intros k _. rewrite Yz_pos, Yz_neg. reflexivity.
Qed.

Theorem Yz_independent l g :
  (forall v, zs l (fun m => g m * Yz l m v) = 0) -> forall m, (Z.abs m <= Z.of_nat l)%Z -> g m = 0.
Proof.
  intros H. destruct (independent l (gcz g) (gsz g)) as [C S].
  - intros v. rewrite <- zs_dsum. apply H.
  - intros m Hm. destruct (zcases m) as [->|[[k ->]|[k ->]]].
    + specialize (C O ltac:(lia)). simpl in C. pose proof sqrt2_pos. apply Rmult_integral in C. destruct C; lra.
    + apply (C (Datatypes.S k)). lia.
    + apply (S (Datatypes.S k)). lia.
Qed.

Theorem Yz_addition l u v :
  zs l (fun m => Yz l m u * Yz l m v) = (2 * INR l + 1) / (4 * PI) * Q l 0 (dot3 u v) (dot3 u u * dot3 v v).
Proof.
  rewrite <- addition, (zs_dsum l (fun m => Yz l m u) v). apply dsum_ext.
  - intros [|k] _; unfold gcz.
    + rewrite Yz_0. pose proof sqrt2_pos. field. lra.
    + rewrite Yz_pos. reflexivity.
  - intros [|k] Hk; [lia|]. unfold gsz. rewrite Yz_neg. reflexivity.
Qed.

(** harmonic part of (v.w) Y *)
Definition Pi_ (L : nat) (m : Z) (w v : V3) : R :=
  dot3 v w * Yz L m v - dot3 v v / (2 * INR L + 1) * dYz L m w v.
Lemma Pi_0 L w v : Pi_ L 0 w v = pic L 0 w v / sqrt 2.
Proof. unfold Pi_, pic. rewrite Yz_0. unfold dYz. simpl. unfold Rdiv. ring. Qed.
Lemma Pi_pos L k w v : Pi_ L (Z.of_nat (S k)) w v = pic L (S k) w v.
Proof. unfold Pi_, pic. rewrite Yz_pos, dYz_pos. reflexivity. Qed.
Lemma Pi_neg L k w v : Pi_ L (- Z.of_nat (S k)) w v = pis L (S k) w v.
Proof. unfold Pi_, pis. rewrite Yz_neg, dYz_neg. reflexivity. Qed.

(** one row of the recursion from order L to L+1; [P i a]: component i of the
    direction (-1: y, 0: z, 1: x) times source degree a *)
Definition rowP (L : nat) (m : Z) (P : Z -> Z -> R) : R :=
  let k := Z.abs_nat m in
  if (m =? 0)%Z then al L 0 * P 0%Z 0%Z - aB L 1 / sqrt 2 * (P 1%Z 1%Z + P (-1)%Z (-1)%Z)
  else if (0 <? m)%Z then
    al L k * P 0%Z m
    + / 2 * aA L (k - 1) * (if (m =? 1)%Z then sqrt 2 * P 1%Z 0%Z else P 1%Z (m - 1)%Z - P (-1)%Z (1 - m)%Z)
    - / 2 * aB L (k + 1) * (P 1%Z (m + 1)%Z + P (-1)%Z (- m - 1)%Z)
  else
    al L k * P 0%Z m
    + / 2 * aA L (k - 1) * (if (m =? -1)%Z then sqrt 2 * P (-1)%Z 0%Z else P 1%Z (m + 1)%Z + P (-1)%Z (- m - 1)%Z)
    - / 2 * aB L (k + 1) * (P 1%Z (m - 1)%Z - P (-1)%Z (1 - m)%Z).
Definition comp (w : V3) (i : Z) : R := if (i =? 0)%Z then vz w else if (i =? 1)%Z then vx w else vy w.

Lemma rowP_lin L m P1 P2 a b :
  rowP L m (fun i c => a * P1 i c + b * P2 i c) = a * rowP L m P1 + b * rowP L m P2.
Proof.
  unfold rowP. destruct (m =? 0)%Z; [ring|]. destruct (0 <? m)%Z.
  - destruct (m =? 1)%Z; ring.
  - destruct (m =? -1)%Z; ring.
Qed.
Lemma rowP_ext L m P1 P2 : (forall i a, P1 i a = P2 i a) -> rowP L m P1 = rowP L m P2.
Proof. intros H. unfold rowP. rewrite !H. reflexivity. Qed.

Lemma rowP_0 L w g : rowP L 0 (fun i a => comp w i * g a) = rowc L w 0 (gcz g) (gsz g) / sqrt 2.
Proof. pose proof sqrt2_pos. unfold rowP, comp, rowc, gcz, gsz. simpl. field. lra. Qed.
Lemma rowP_pos L w g k : rowP L (Z.of_nat (S k)) (fun i a => comp w i * g a) = rowc L w (S k) (gcz g) (gsz g).
Proof.
  unfold rowP. destruct (Z.eqb_spec (Z.of_nat (S k)) 0); [lia|]. destruct (Z.ltb_spec 0 (Z.of_nat (S k))); [|lia].
  replace (Z.abs_nat (Z.of_nat (S k))) with (S k) by lia. replace (S k - 1)%nat with k by lia. replace (S k + 1)%nat with (S (S k)) by lia.
  unfold comp, rowc. simpl (0 =? 0)%Z. simpl (1 =? 0)%Z. simpl (1 =? 1)%Z. simpl (-1 =? 0)%Z. simpl (-1 =? 1)%Z. cbv iota.
  replace (Z.of_nat (S k) + 1)%Z with (Z.of_nat (S (S k))) by lia.
  replace (- Z.of_nat (S k) - 1)%Z with (- Z.of_nat (S (S k)))%Z by lia.
  destruct k as [|k].
  - simpl. ring.
  - destruct (Z.eqb_spec (Z.of_nat (S (S k))) 1); [lia|].
    replace (Z.of_nat (S (S k)) - 1)%Z with (Z.of_nat (S k)) by lia.
    replace (1 - Z.of_nat (S (S k)))%Z with (- Z.of_nat (S k))%Z by lia.
    unfold gcz, gsz. ring.
Qed.
Lemma rowP_neg L w g k : rowP L (- Z.of_nat (S k)) (fun i a => comp w i * g a) = rows_ L w (S k) (gcz g) (gsz g).
Proof.
  unfold rowP. destruct (Z.eqb_spec (- Z.of_nat (S k)) 0); [lia|]. destruct (Z.ltb_spec 0 (- Z.of_nat (S k))); [lia|].
  replace (Z.abs_nat (- Z.of_nat (S k))) with (S k) by lia. replace (S k - 1)%nat with k by lia. replace (S k + 1)%nat with (S (S k)) by lia.
  unfold comp, rows_. simpl (0 =? 0)%Z. simpl (1 =? 0)%Z. simpl (1 =? 1)%Z. simpl (-1 =? 0)%Z. simpl (-1 =? 1)%Z. cbv iota.
  replace (- Z.of_nat (S k) - 1)%Z with (- Z.of_nat (S (S k)))%Z by lia.
  replace (1 - - Z.of_nat (S k))%Z with (Z.of_nat (S (S k)))%Z by lia.
  replace (- - Z.of_nat (S k) - 1)%Z with (Z.of_nat k)%Z by lia.
  destruct k as [|k].
  - simpl. ring.
  - destruct (Z.eqb_spec (- Z.of_nat (S (S k))) (-1)); [lia|].
    replace (- Z.of_nat (S (S k)) + 1)%Z with (- Z.of_nat (S k))%Z by lia.
    unfold gcz, gsz. ring.
Qed.

Lemma swapZ L w v g :
  zs L (fun a => g a * Pi_ L a w v) = zs (S L) (fun m => Yz (S L) m v * rowP L m (fun i a => comp w i * g a)).
Proof.
  pose proof sqrt2_pos as SP.
  transitivity (dsum L (fun m => gcz g m * pic L m w v) (fun m => gsz g m * pis L m w v)).
  - rewrite zs_split. unfold dsum. f_equal.
    + rewrite Pi_0. unfold gcz. unfold Rdiv. rewrite sqrt2_inv. field.
    + apply rsum_ext. intros k _. rewrite Pi_pos, Pi_neg. reflexivity.
  - rewrite swap by reflexivity. rewrite zs_split. unfold dsum. f_equal.
    + rewrite Yz_0, rowP_0. generalize (rowc L w 0 (gcz g) (gsz g)), (tc (S L) 0 v). intros r t.
      transitivity (t * r * / (sqrt 2 * sqrt 2)); [rewrite sqrt2_sq; field|field; lra].
    + apply rsum_ext. intros k _. rewrite Yz_pos, Yz_neg, rowP_pos, rowP_neg. reflexivity.
Qed.

(** the harmonic parts along the axes *)
Definition ex : V3 := (1, 0, 0).
Definition ey : V3 := (0, 1, 0).
Definition ez : V3 := (0, 0, 1).
Lemma Pi_ez L n v : (Z.abs n <= Z.of_nat L)%Z -> Pi_ L n ez v = al L (Z.abs_nat n) * Yz (S L) n v.
Proof.
  intros H. destruct (zcases n) as [->|[[k ->]|[k ->]]].
  - rewrite Pi_0, pic_col0, Yz_0. unfold ez, vx, vy, vz. simpl. unfold Rdiv. ring.
  - rewrite Pi_pos, pic_col, Yz_pos by lia. replace (Z.abs_nat (Z.of_nat (S k))) with (S k) by lia.
    unfold ez, vx, vy, vz. simpl fst. simpl snd. ring.
  - rewrite Pi_neg, pis_col, Yz_neg by lia. replace (Z.abs_nat (- Z.of_nat (S k))) with (S k) by lia.
    unfold ez, vx, vy, vz. simpl fst. simpl snd. ring.
Qed.
Lemma Pi_top L k v : L = S k ->
  Pi_ L (Z.of_nat L) ex v - Pi_ L (- Z.of_nat L) ey v = aA L L * Yz (S L) (Z.of_nat (S L)) v /\
  Pi_ L (- Z.of_nat L) ex v + Pi_ L (Z.of_nat L) ey v = aA L L * Yz (S L) (- Z.of_nat (S L)) v.
Proof.
  intros ->. rewrite !Pi_pos, !Pi_neg, !pic_col, !pis_col, Yz_pos, Yz_neg by lia.
  unfold ex, ey, vx, vy, vz. simpl fst. simpl snd. split; field.
Qed.

(** ** orthogonal maps *)
Definition ortho3 (M : M3) : Prop := mm3 (tr3 M) M = eye3 /\ mm3 M (tr3 M) = eye3.

Lemma mv3_add M u v : mv3 M (add3 u v) = add3 (mv3 M u) (mv3 M v).
Proof. unfold mv3, add3, dot3, vx, vy, vz; cbn. f_equal; [f_equal|]; ring. Qed.
Lemma mv3_scal M t v : mv3 M (scal3 t v) = scal3 t (mv3 M v).
Proof. unfold mv3, scal3, dot3, vx, vy, vz; cbn. f_equal; [f_equal|]; ring. Qed.
Lemma mv3_mm3 A B v : mv3 (mm3 A B) v = mv3 A (mv3 B v).
Proof.
  destruct A as [[[[a1 a2] a3] [[b1 b2] b3]] [[c1 c2] c3]].
  destruct B as [[[[d1 d2] d3] [[e1 e2] e3]] [[f1 f2] f3]]. destruct v as [[x y] z].
  unfold mv3, mm3, tr3, dot3, row1, row2, row3, vx, vy, vz; cbn. f_equal; [f_equal|]; unfold dot3, vx, vy, vz; cbn; ring.
Qed.
Lemma mv3_eye v : mv3 eye3 v = v.
Proof. destruct v as [[x y] z]. unfold mv3, eye3, dot3, row1, row2, row3, vx, vy, vz; cbn. f_equal; [f_equal|]; ring. Qed.
Lemma dot3_tr M u v : dot3 (mv3 M u) v = dot3 u (mv3 (tr3 M) v).
Proof.
  destruct M as [[[[a1 a2] a3] [[b1 b2] b3]] [[c1 c2] c3]]. destruct u as [[x y] z]. destruct v as [[p q] r].
  unfold mv3, tr3, dot3, row1, row2, row3, vx, vy, vz; cbn. unfold dot3, vx, vy, vz; cbn. ring.
Qed.
Lemma ortho_dot M u v : ortho3 M -> dot3 (mv3 M u) (mv3 M v) = dot3 u v.
Proof. intros [H _]. rewrite dot3_tr, <- mv3_mm3, H, mv3_eye. reflexivity. Qed.
Lemma ortho_inv M v : ortho3 M -> mv3 M (mv3 (tr3 M) v) = v.
Proof. intros [_ H]. rewrite <- mv3_mm3, H, mv3_eye. reflexivity. Qed.

(** [B a n] (block of order L) turns harmonics into rotated harmonics *)
Definition carries (M : M3) (L : nat) (B : Z -> Z -> R) : Prop :=
  forall v n, (Z.abs n <= Z.of_nat L)%Z -> Yz L n v = zs L (fun a => B a n * Yz L a (mv3 M v)).

Lemma carries_deriv M L B : carries M L B -> forall w v n, (Z.abs n <= Z.of_nat L)%Z ->
  dYz L n w v = zs L (fun a => B a n * dYz L a (mv3 M w) (mv3 M v)).
Proof.
  intros H w v n Hn. apply ddir_unique with (Yz L n) v w; [apply Yz_deriv|].
  apply ddir_ext with (fun x => zs L (fun a => B a n * Yz L a (mv3 M x))).
  - intros x. symmetry. apply H. auto.
  - unfold zs. apply (ddir_rsum _ (fun i x => B (Z.of_nat i - Z.of_nat L)%Z n * Yz L (Z.of_nat i - Z.of_nat L) (mv3 M x))).
    intros i _. apply ddir_scal. unfold ddir.
    apply dpl_ext with (fun t => Yz L (Z.of_nat i - Z.of_nat L) (add3 (mv3 M v) (scal3 t (mv3 M w)))).
    + intros t. rewrite mv3_add, mv3_scal. reflexivity.
    + apply Yz_deriv.
Qed.

Lemma carries_Pi M L B : ortho3 M -> carries M L B -> forall w v n, (Z.abs n <= Z.of_nat L)%Z ->
  Pi_ L n w v = zs (S L) (fun m => Yz (S L) m (mv3 M v) * rowP L m (fun i a => comp (mv3 M w) i * B a n)).
Proof.
  intros O H w v n Hn. rewrite <- (swapZ L (mv3 M w) (mv3 M v) (fun a => B a n)).
  unfold Pi_. rewrite (H v n Hn), (carries_deriv M L B H w v n Hn), <- (ortho_dot M v w O), <- (ortho_dot M v v O).
  symmetry.
  rewrite (zs_ext L _ (fun a => dot3 (mv3 M v) (mv3 M w) * (B a n * Yz L a (mv3 M v)) +
     - (dot3 (mv3 M v) (mv3 M v) / (2 * INR L + 1)) * (B a n * dYz L a (mv3 M w) (mv3 M v)))) by (intros; ring).
  rewrite zs_plus, !zs_scal. ring.
Qed.

(** the recursion over orders preserves [carries] *)
Lemma carries_step M L B B' : ortho3 M -> carries M (S L) B ->
  (forall m n, (Z.abs n <= Z.of_nat (S L))%Z ->
     al (S L) (Z.abs_nat n) * B' m n = rowP (S L) m (fun i a => comp (mv3 M ez) i * B a n)) ->
  (forall m, aA (S L) (S L) * B' m (Z.of_nat (S (S L))) =
     rowP (S L) m (fun i a => comp (mv3 M ex) i * B a (Z.of_nat (S L)) - comp (mv3 M ey) i * B a (- Z.of_nat (S L))%Z)) ->
  (forall m, aA (S L) (S L) * B' m (- Z.of_nat (S (S L)))%Z =
     rowP (S L) m (fun i a => comp (mv3 M ex) i * B a (- Z.of_nat (S L))%Z + comp (mv3 M ey) i * B a (Z.of_nat (S L)))) ->
  carries M (S (S L)) B'.
Proof.
  intros O H H0 H1 H2 v n Hn.
  assert (CS : (Z.abs n <= Z.of_nat (S L))%Z \/ n = Z.of_nat (S (S L)) \/ n = (- Z.of_nat (S (S L)))%Z) by lia.
  destruct CS as [Hn'|[->| ->]].
  - pose proof (Pi_ez (S L) n v Hn') as E. rewrite (carries_Pi M (S L) B O H) in E by auto.
    assert (AP : 0 < al (S L) (Z.abs_nat n)) by (apply al_pos; lia).
    apply Rmult_eq_reg_l with (al (S L) (Z.abs_nat n)); [|lra]. rewrite <- E, <- zs_scal.
    apply zs_ext. intros m Hm. rewrite <- H0 by auto. ring.
  - destruct (Pi_top (S L) L v eq_refl) as [E _]. rewrite !(carries_Pi M (S L) B O H) in E by lia.
    assert (AP : 0 < aA (S L) (S L)) by apply aA_pos.
    apply Rmult_eq_reg_l with (aA (S L) (S L)); [|lra]. rewrite <- E, <- zs_scal.
    transitivity (zs (S (S L)) (fun m => Yz (S (S L)) m (mv3 M v) * rowP (S L) m (fun i a => comp (mv3 M ex) i * B a (Z.of_nat (S L)))) +
      zs (S (S L)) (fun m => -1 * (Yz (S (S L)) m (mv3 M v) * rowP (S L) m (fun i a => comp (mv3 M ey) i * B a (- Z.of_nat (S L))%Z)))).
    + rewrite zs_scal. ring.
    + rewrite <- zs_plus. apply zs_ext. intros m Hm. rewrite <- (Rmult_assoc (aA (S L) (S L))), H1.
      rewrite (rowP_ext (S L) m (fun i a => comp (mv3 M ex) i * B a (Z.of_nat (S L)) - comp (mv3 M ey) i * B a (- Z.of_nat (S L))%Z)
        (fun i a => 1 * (comp (mv3 M ex) i * B a (Z.of_nat (S L))) + -1 * (comp (mv3 M ey) i * B a (- Z.of_nat (S L))%Z))) by (intros; ring).
      rewrite (rowP_lin (S L) m (fun i a => comp (mv3 M ex) i * B a (Z.of_nat (S L))) (fun i a => comp (mv3 M ey) i * B a (- Z.of_nat (S L))%Z)). ring.
  - destruct (Pi_top (S L) L v eq_refl) as [_ E]. rewrite !(carries_Pi M (S L) B O H) in E by lia.
    assert (AP : 0 < aA (S L) (S L)) by apply aA_pos.
    apply Rmult_eq_reg_l with (aA (S L) (S L)); [|lra]. rewrite <- E, <- zs_scal, <- zs_plus.
    apply zs_ext. intros m Hm. rewrite <- (Rmult_assoc (aA (S L) (S L))), H2.
    rewrite (rowP_ext (S L) m (fun i a => comp (mv3 M ex) i * B a (- Z.of_nat (S L))%Z + comp (mv3 M ey) i * B a (Z.of_nat (S L)))
      (fun i a => 1 * (comp (mv3 M ex) i * B a (- Z.of_nat (S L))%Z) + 1 * (comp (mv3 M ey) i * B a (Z.of_nat (S L))))) by (intros; ring).
    rewrite (rowP_lin (S L) m (fun i a => comp (mv3 M ex) i * B a (- Z.of_nat (S L))%Z) (fun i a => comp (mv3 M ey) i * B a (Z.of_nat (S L)))). ring.
Qed.

(** what carrying means: the block applied to Y(v) is Y(M v), and it is orthogonal *)
Theorem carries_rotates M L B : ortho3 M -> carries M L B -> forall v m, (Z.abs m <= Z.of_nat L)%Z ->
  Yz L m (mv3 M v) = zs L (fun n => B m n * Yz L n v).
Proof.
  intros O H v m Hm. apply Rminus_diag_uniq_sym.
  apply (Yz_independent L (fun m => zs L (fun n => B m n * Yz L n v) - Yz L m (mv3 M v))); auto.
  intros u. rewrite <- (ortho_inv M u O). set (u' := mv3 (tr3 M) u).
  transitivity (zs L (fun m => Yz L m (mv3 M u') * zs L (fun n => B m n * Yz L n v)) +
                -1 * zs L (fun m => Yz L m (mv3 M u') * Yz L m (mv3 M v))).
  { rewrite <- zs_scal, <- zs_plus. apply zs_ext. intros; ring. }
  rewrite Yz_addition, !(ortho_dot M _ _ O), <- Yz_addition.
  rewrite (zs_ext L (fun m => Yz L m (mv3 M u') * zs L (fun n => B m n * Yz L n v))
    (fun m => zs L (fun n => Yz L n v * (B m n * Yz L m (mv3 M u'))))) by (intros; rewrite <- zs_scal; apply zs_ext; intros; ring).
  rewrite zs_swap.
  rewrite (zs_ext L (fun b => zs L (fun a => Yz L b v * (B a b * Yz L a (mv3 M u')))) (fun n => Yz L n u' * Yz L n v)).
  - ring.
  - intros n Hn. rewrite zs_scal, <- H by auto. ring.
Qed.

Definition zdelta (m n : Z) : R := if (m =? n)%Z then 1 else 0.
Lemma zs_delta l n f : (Z.abs n <= Z.of_nat l)%Z -> zs l (fun m => zdelta m n * f m) = f n.
Proof.
  intros H. rewrite (zs_single l n); auto.
  - unfold zdelta. rewrite Z.eqb_refl. ring.
  - intros m _ D. unfold zdelta. destruct (Z.eqb_spec m n); [lia|ring].
Qed.
Lemma zs_eq_coeff l f g : (forall v, zs l (fun m => f m * Yz l m v) = zs l (fun m => g m * Yz l m v)) ->
  forall m, (Z.abs m <= Z.of_nat l)%Z -> f m = g m.
Proof.
  intros H m Hm. apply Rminus_diag_uniq. apply (Yz_independent l (fun m => f m - g m)); auto.
  intros v. rewrite (zs_ext l _ (fun m => f m * Yz l m v + -1 * (g m * Yz l m v))) by (intros; ring).
  rewrite zs_plus, zs_scal, H. ring.
Qed.

Theorem carries_orthogonal M L B : ortho3 M -> carries M L B -> forall n n',
  (Z.abs n <= Z.of_nat L)%Z -> (Z.abs n' <= Z.of_nat L)%Z ->
  zs L (fun m => B m n * B m n') = zdelta n n'.
Proof.
  intros O H n n' Hn Hn'. symmetry.
  revert n' Hn'. apply (zs_eq_coeff L (fun n' => zdelta n n') (fun n' => zs L (fun m => B m n * B m n'))).
  intros v. rewrite (zs_ext L (fun m => zdelta n m * Yz L m v) (fun m => zdelta m n * Yz L m v)).
  - rewrite zs_delta by auto. rewrite (H v n Hn).
    rewrite (zs_ext L (fun m => zs L (fun m0 => B m0 n * B m0 m) * Yz L m v) (fun m => zs L (fun a => B a n * (B a m * Yz L m v)))).
    + rewrite zs_swap. apply zs_ext. intros a Ha. rewrite zs_scal, <- (carries_rotates M L B O H) by auto. reflexivity.
    + intros m Hm. rewrite (Rmult_comm (zs L _)), <- zs_scal. apply zs_ext. intros; ring.
  - intros m _. unfold zdelta. rewrite Z.eqb_sym. reflexivity.
Qed.

(** the block is determined by the map *)
Theorem carries_unique M L B B' : ortho3 M -> carries M L B -> carries M L B' ->
  forall m n, (Z.abs m <= Z.of_nat L)%Z -> (Z.abs n <= Z.of_nat L)%Z -> B m n = B' m n.
Proof.
  intros O H H' m n Hm Hn. apply (zs_eq_coeff L (fun n => B m n) (fun n => B' m n)); auto.
  intros v. rewrite <- !(carries_rotates M L _ O) by auto. reflexivity.
Qed.

(** order 1 *)
Lemma Yz1 v : Yz 1 (-1) v = sqrt (3 / (4 * PI)) * vy v /\ Yz 1 0 v = sqrt (3 / (4 * PI)) * vz v /\
  Yz 1 1 v = sqrt (3 / (4 * PI)) * vx v.
Proof.
  pose proof PI_RGT_0. pose proof sqrt2_pos as SP.
  assert (N0 : nk 1 0 = sqrt (3 / (4 * PI))) by (unfold nk; f_equal; simpl; field; lra).
  assert (N1 : sqrt 2 * nk 1 1 = sqrt (3 / (4 * PI))).
  { unfold nk. rewrite <- sqrt_mult_alt by lra. f_equal. simpl. field; lra. }
  rewrite Yz_0. change (-1)%Z with (- Z.of_nat 1)%Z. change 1%Z with (Z.of_nat 1). rewrite Yz_neg, Yz_pos.
  unfold tc, ts, Hc, Hs. rewrite N1. rewrite N0.
  assert (Q11 : Q 1 1 (vz v) (dot3 v v) = 1) by (rewrite Q_diag; simpl; ring).
  assert (Q10 : Q 1 0 (vz v) (dot3 v v) = vz v).
  { unfold Q. simpl. field. }
  rewrite Q11, Q10. simpl ck. simpl sk. repeat split; try (field; lra); ring.
Qed.
