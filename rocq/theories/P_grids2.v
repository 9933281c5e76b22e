(** equal_angle and gauss are exact quadratures; equal_polar_angle. *)
From Verif Require Import Base BaseFacts M_utils M_sig M_sph0 M_sph M_grids S_sph P_sph1 P_sph4 P_sph7 P_sph11 P_sph12 P_grids1.
Open Scope R_scope.

Lemma length_tile l k : length (np_tile l k) = (k * length l)%nat.
Proof. induction k; [reflexivity|]. unfold np_tile in *. simpl. rewrite app_length, IHk. reflexivity. Qed.
Lemma nth_tile l k i j d : (j < length l)%nat -> (i < k)%nat -> nth (i * length l + j) (np_tile l k) d = nth j l d.
Proof.
  intros Hj. revert i. induction k as [|k IH]; intros i Hi; [lia|]. unfold np_tile in *. simpl. destruct i as [|i].
  - simpl. apply app_nth1. auto.
  - rewrite app_nth2 by (simpl; lia). replace (S i * length l + j - length l)%nat with (i * length l + j)%nat by (simpl; lia). apply IH. lia.
Qed.
Lemma length_rep l k : length (np_repeat l k) = (length l * k)%nat.
Proof. induction l as [|x l IH]; [reflexivity|]. unfold np_repeat in *. simpl. rewrite app_length, repeat_length, IH. lia. Qed.
Lemma nth_rep l k i j d : (j < k)%nat -> (i < length l)%nat -> nth (i * k + j) (np_repeat l k) d = nth i l d.
Proof.
  intros Hj. revert i. induction l as [|x l IH]; intros i Hi; [simpl in Hi; lia|]. unfold np_repeat in *. simpl. destruct i as [|i].
  - simpl. rewrite app_nth1 by (rewrite repeat_length; auto). apply nth_repeat_in. auto.
  - rewrite app_nth2 by (rewrite repeat_length; simpl; lia). rewrite repeat_length.
    replace (S i * k + j - k)%nat with (i * k + j)%nat by (simpl; lia). apply IH. simpl in Hi. lia.
Qed.
Lemma In_rep l k x : In x (np_repeat l k) -> In x l.
Proof. unfold np_repeat. rewrite in_flat_map. intros [y [H1 H2]]. apply repeat_spec in H2. subst. auto. Qed.
Lemma rsum_prod n m f : rsum (n * m) f = rsum n (fun i => rsum m (fun j => f (i * m + j)%nat)).
Proof.
  induction n as [|n IH]; [reflexivity|]. replace (S n * m)%nat with (n * m + m)%nat by (simpl; lia).
  rewrite rsum_app, IH. reflexivity.
Qed.
Lemma length_linspace s k : length (linspace0 s k) = k.
Proof. unfold linspace0. rewrite map_length, seq_length. reflexivity. Qed.
Lemma nth_linspace s k i : (i < k)%nat -> nth i (linspace0 s k) 0 = INR i * (s / INR k).
Proof. intros H. unfold linspace0. rewrite nth_map_seq; auto. Qed.

(** order and degree separate *)
Lemma sh_real_zero_degree n azi zen : sh_real n 0 azi zen = sh_norm n 0 * eval_legendre n (cos zen).
Proof.
  unfold sh_real, sph_harm, sh_norm. simpl Z.abs_nat. cbn [Z.eqb Z.ltb Z.compare fst]. simpl (INR 0).
  rewrite lpmv_Q, legendre_Q, Rmult_0_l, cos_0. simpl pow. ring.
Qed.
Lemma sh_real_separable n m : m <> 0%Z -> exists A s, forall azi zen,
  sh_real n m azi zen = A zen * (if s : bool then sin (INR (Z.abs_nat m) * azi) else cos (INR (Z.abs_nat m) * azi)).
Proof.
  intros N. assert (EA : Z.abs_nat (Z.abs m) = Z.abs_nat m) by lia. assert (EL : (Z.abs m <? 0)%Z = false) by (apply Z.ltb_ge; lia).
  exists (fun zen => sqrt 2 * (-1) ^ Z.abs_nat m * (sqrt ((2 * INR n + 1) / (4 * PI) * (INR (fact (n - Z.abs_nat m)) / INR (fact (n + Z.abs_nat m)))) * lpmv (Z.abs_nat m) n (cos zen))), (m <? 0)%Z.
  intros azi zen. unfold sh_real, sph_harm. rewrite EA, EL. cbn [fst snd]. rewrite (proj2 (Z.eqb_neq m 0) N). destruct (m <? 0)%Z; ring.
Qed.

(** a product of an exact polar rule with enough equispaced azimuths is exact *)
Theorem product_exact J t (th W : list R) (om : nat -> R) : (t < J)%nat -> zeniths th ->
  length W = (length th * J)%nat -> (forall i j, (i < length th)%nat -> (j < J)%nat -> nth (i * J + j) W 0 = om i) ->
  INR J * rsum (length th) om = 4 * PI ->
  (forall n, (1 <= n <= t)%nat -> rsum (length th) (fun i => om i * eval_legendre n (cos (nth i th 0))) = 0) ->
  exact_for sh_real t (np_tile (linspace0 (2 * PI) J) (length th)) (np_repeat th J) W.
Proof.
  intros tJ ZZ LW HW S1 SL. unfold exact_for. rewrite length_tile, length_rep, length_linspace, LW.
  split; [reflexivity|]. split; [reflexivity|]. split; [|split].
  - intros z Hz. apply ZZ. eapply In_rep, Hz.
  - rewrite lsum_rsum, LW, rsum_prod. rewrite <- S1, <- rsum_scal. apply rsum_ext. intros i Hi.
    rewrite <- rsum_const. apply rsum_ext. intros j Hj. apply HW; auto.
  - intros n m Hn Hm. rewrite rsum_prod.
    rewrite (rsum_ext _ _ (fun i => rsum J (fun j => om i * sh_real n m (INR j * (2 * PI / INR J)) (nth i th 0)))).
    2:{ intros i Hi. apply rsum_ext. intros j Hj. rewrite HW by auto. rewrite nth_rep by auto.
        replace (i * J + j)%nat with (i * length (linspace0 (2 * PI) J) + j)%nat by (rewrite length_linspace; reflexivity).
        rewrite nth_tile by (auto; rewrite length_linspace; auto). rewrite nth_linspace; auto. }
    destruct (Z.eq_dec m 0) as [->|N].
    + rewrite (rsum_ext _ _ (fun i => (INR J * sh_norm n 0) * (om i * eval_legendre n (cos (nth i th 0))))).
      * rewrite rsum_scal, SL by auto. ring.
      * intros i Hi. rewrite <- Rmult_assoc. rewrite (rsum_ext _ _ (fun _ => om i * (sh_norm n 0 * eval_legendre n (cos (nth i th 0))))).
        -- rewrite rsum_const. ring.
        -- intros j Hj. rewrite sh_real_zero_degree. reflexivity.
    + destruct (sh_real_separable n m N) as [A [s E]]. unfold degree in Hm.
      destruct (azi_sums J (Z.abs_nat m)) as [C S]; [lia|].
      apply rsum_0. intros i Hi.
      rewrite (rsum_ext _ _ (fun j => (om i * A (nth i th 0)) * (if s then sin (INR (Z.abs_nat m) * (INR j * (2 * PI / INR J))) else cos (INR (Z.abs_nat m) * (INR j * (2 * PI / INR J)))))).
      * rewrite rsum_scal. destruct s; [rewrite S|rewrite C]; ring.
      * intros j Hj. rewrite E. ring.
Qed.

(** ** equal_angle *)
Definition ea_om (n i : nat) : R :=
  2 / (INR n + 1) * (sin (half_pt (2 * n + 2) i) * rsum (n + 1) (fun l => sin (INR (2 * l + 1) * half_pt (2 * n + 2) i) / INR (2 * l + 1))).
Lemma prod3 p k t : sin t * sin (p * t) * cos (k * t) =
  / 4 * (cos ((p - 1 + k) * t) + cos ((p - 1 - k) * t) - cos ((p + 1 + k) * t) - cos ((p + 1 - k) * t)).
Proof.
  replace ((p - 1 + k) * t) with ((p * t - t) + k * t) by ring. replace ((p - 1 - k) * t) with ((p * t - t) - k * t) by ring.
  replace ((p + 1 + k) * t) with ((p * t + t) + k * t) by ring. replace ((p + 1 - k) * t) with ((p * t + t) - k * t) by ring.
  rewrite !cos_plus, !cos_minus, !cos_plus, !sin_plus, !sin_minus. field.
Qed.
Lemma ea_inner n l k : (l <= n)%nat -> (k <= 2 * n + 1)%nat ->
  rsum (2 * n + 2) (fun i => sin (half_pt (2 * n + 2) i) * sin (INR (2 * l + 1) * half_pt (2 * n + 2) i) * cos (INR k * half_pt (2 * n + 2) i)) =
  (INR n + 1) / 2 * (dz (2 * Z.of_nat l + Z.of_nat k) + dz (2 * Z.of_nat l - Z.of_nat k) - dz (2 * Z.of_nat l + 2 - Z.of_nat k)).
Proof.
  intros Hl Hk. set (L := (2 * n + 2)%nat).
  assert (EL : INR L = 2 * (INR n + 1)) by (unfold L; rewrite plus_INR, mult_INR; simpl; ring).
  rewrite (rsum_ext _ _ (fun i => / 4 * ((cos (IZR (2 * Z.of_nat l + Z.of_nat k) * half_pt L i) + cos (IZR (2 * Z.of_nat l - Z.of_nat k) * half_pt L i))
     - (cos (IZR (2 * Z.of_nat l + 2 + Z.of_nat k) * half_pt L i) + cos (IZR (2 * Z.of_nat l + 2 - Z.of_nat k) * half_pt L i))))).
  2:{ intros i _. rewrite prod3.
      replace (INR (2 * l + 1) - 1 + INR k) with (IZR (2 * Z.of_nat l + Z.of_nat k)) by (rewrite !plus_IZR, mult_IZR, plus_INR, mult_INR, <- !INR_IZR_INZ; simpl; ring).
      replace (INR (2 * l + 1) - 1 - INR k) with (IZR (2 * Z.of_nat l - Z.of_nat k)) by (rewrite minus_IZR, mult_IZR, plus_INR, mult_INR, <- !INR_IZR_INZ; simpl; ring).
      replace (INR (2 * l + 1) + 1 + INR k) with (IZR (2 * Z.of_nat l + 2 + Z.of_nat k)) by (rewrite !plus_IZR, mult_IZR, plus_INR, mult_INR, <- !INR_IZR_INZ; simpl; ring).
      replace (INR (2 * l + 1) + 1 - INR k) with (IZR (2 * Z.of_nat l + 2 - Z.of_nat k)) by (rewrite minus_IZR, plus_IZR, mult_IZR, plus_INR, mult_INR, <- !INR_IZR_INZ; simpl; ring).
      ring. }
  rewrite rsum_scal.
  rewrite (rsum_minus L (fun i => cos (IZR (2 * Z.of_nat l + Z.of_nat k) * half_pt L i) + cos (IZR (2 * Z.of_nat l - Z.of_nat k) * half_pt L i))
     (fun i => cos (IZR (2 * Z.of_nat l + 2 + Z.of_nat k) * half_pt L i) + cos (IZR (2 * Z.of_nat l + 2 - Z.of_nat k) * half_pt L i))).
  rewrite (rsum_plus L (fun i => cos (IZR (2 * Z.of_nat l + Z.of_nat k) * half_pt L i)) (fun i => cos (IZR (2 * Z.of_nat l - Z.of_nat k) * half_pt L i))).
  rewrite (rsum_plus L (fun i => cos (IZR (2 * Z.of_nat l + 2 + Z.of_nat k) * half_pt L i)) (fun i => cos (IZR (2 * Z.of_nat l + 2 - Z.of_nat k) * half_pt L i))).
  rewrite !half_cosZ by (unfold L; lia).
  assert (D0 : dz (2 * Z.of_nat l + 2 + Z.of_nat k) = 0) by (unfold dz; rewrite (proj2 (Z.eqb_neq _ 0)); [reflexivity|lia]).
  rewrite D0, EL. field.
Qed.
Lemma ea_rule n k : (k <= 2 * n + 1)%nat -> rule (2 * n + 2) (ea_om n) (half_pt (2 * n + 2)) (fun t => cos (INR k * t)) = Icos k.
Proof.
  intros Hk. unfold rule, ea_om. pose proof (pos_INR n) as PN.
  rewrite (rsum_ext _ _ (fun i => rsum (n + 1) (fun l => (2 / (INR n + 1) / INR (2 * l + 1)) *
     (sin (half_pt (2 * n + 2) i) * sin (INR (2 * l + 1) * half_pt (2 * n + 2) i) * cos (INR k * half_pt (2 * n + 2) i))))).
  2:{ intros i _. set (h := half_pt (2 * n + 2) i). rewrite <- !Rmult_assoc.
      transitivity ((2 / (INR n + 1) * sin h * cos (INR k * h)) * rsum (n + 1) (fun l => sin (INR (2 * l + 1) * h) / INR (2 * l + 1))); [ring|].
      rewrite <- rsum_scal. apply rsum_ext. intros l _. assert (INR (2 * l + 1) <> 0) by (apply not_0_INR; lia). field; split; auto; lra. }
  rewrite rsum_swap.
  rewrite (rsum_ext _ _ (fun l => / INR (2 * l + 1) * (dz (2 * Z.of_nat l + Z.of_nat k) + dz (2 * Z.of_nat l - Z.of_nat k) - dz (2 * Z.of_nat l + 2 - Z.of_nat k)))).
  2:{ intros l Hl. rewrite rsum_scal, ea_inner by lia. assert (INR (2 * l + 1) <> 0) by (apply not_0_INR; lia). field; split; auto; lra. }
  unfold Icos. assert (DN : forall a, a <> 0%Z -> dz a = 0) by (intros a H; unfold dz; rewrite (proj2 (Z.eqb_neq _ 0) H); reflexivity).
  assert (D1 : dz 0 = 1) by reflexivity.
  destruct (Nat.even k) eqn:EV.
  - apply Nat.even_spec in EV. destruct EV as [j ->].
    destruct j as [|j].
    + rewrite (rsum_single (n + 1) 0).
      * simpl. rewrite (DN 2%Z) by lia. rewrite D1. field.
      * lia.
      * intros l Hl Hn. rewrite (DN (2 * Z.of_nat l + Z.of_nat (2 * 0))%Z) by lia. rewrite (DN (2 * Z.of_nat l - Z.of_nat (2 * 0))%Z) by lia. rewrite (DN (2 * Z.of_nat l + 2 - Z.of_nat (2 * 0))%Z) by lia. ring.
    + rewrite (rsum_ext _ _ (fun l => / INR (2 * l + 1) * dz (2 * Z.of_nat l - Z.of_nat (2 * S j)) - / INR (2 * l + 1) * dz (2 * Z.of_nat l + 2 - Z.of_nat (2 * S j)))).
      2:{ intros l Hl. rewrite (DN (2 * Z.of_nat l + Z.of_nat (2 * S j))%Z) by lia. ring. }
      rewrite rsum_minus. rewrite (rsum_single (n + 1) (S j)), (rsum_single (n + 1) j).
      * replace (2 * Z.of_nat (S j) - Z.of_nat (2 * S j))%Z with 0%Z by lia. replace (2 * Z.of_nat j + 2 - Z.of_nat (2 * S j))%Z with 0%Z by lia. rewrite D1.
        rewrite !plus_INR, !mult_INR, !S_INR. simpl INR. pose proof (pos_INR j). field. split; lra.
      * lia.
      * intros l Hl Hn. rewrite DN by lia. ring.
      * lia.
      * intros l Hl Hn. rewrite DN by lia. ring.
  - assert (OD : Nat.odd k = true) by (rewrite <- Nat.negb_even, EV; reflexivity). apply Nat.odd_spec in OD. destruct OD as [j ->].
    apply rsum_0. intros l Hl. rewrite !DN by lia. ring.
Qed.
Lemma half_pt_range L i : (i < L)%nat -> 0 <= half_pt L i <= PI.
Proof.
  intros H. assert (L0 : 0 < INR L) by (apply lt_0_INR; lia). pose proof PI_RGT_0 as P. pose proof (pos_INR i) as P0.
  assert (P1 : 0 < PI / INR L) by (apply Rdiv_lt_0_compat; auto).
  assert (P2 : INR L * (PI / INR L) = PI) by (field; lra).
  assert (P3 : INR i + 1 <= INR L) by (rewrite <- S_INR; apply le_INR; lia).
  unfold half_pt. split; nra.
Qed.
Theorem equal_angle_exact n azi zen w : equal_angle n = (azi, zen, w) ->
  length azi = ((2 * n + 2) * (2 * n + 2))%nat /\ exact_for sh_real (2 * n + 1) azi zen w.
Proof.
  intros E. unfold equal_angle in E. set (L := (2 * n + 2)%nat) in *. injection E as <- <- <-.
  rewrite length_tile, length_linspace. split; [reflexivity|].
  set (th := map (fun t => t + PI / INR L / 2) (linspace0 PI L)).
  assert (LT : length th = L) by (unfold th; rewrite map_length, length_linspace; reflexivity).
  assert (NT : forall i, (i < L)%nat -> nth i th 0 = half_pt L i).
  { intros i Hi. unfold th. rewrite (nth_map_in _ _ _ _ 0) by (rewrite length_linspace; auto). rewrite nth_linspace by auto. reflexivity. }
  pose proof (rule_legendre L (ea_om n) (half_pt L) (fun k t => cos (INR k * t)) (2 * n + 1) family_cos) as RL.
  destruct RL as [R2 RL]. { intros k Hk. exists (Icos k). split; [apply tint_cos|apply ea_rule; auto]. }
  pose proof (pos_INR n) as PN. pose proof PI_RGT_0 as PP. assert (EL : INR L = 2 * (INR n + 1)) by (unfold L; rewrite plus_INR, mult_INR; simpl; ring).
  set (f := fun theta : R => 2 * PI / (INR n + 1) * sin theta * lsum (map (fun q => sin (q * theta) / q) (map (fun l => INR (2 * l + 1)) (seq 0 (n + 1))))).
  assert (FO : forall i, f (half_pt L i) / (INR n + 1) = PI / (INR n + 1) * ea_om n i).
  { intros i. unfold f, ea_om. fold L. rewrite map_map, lsum_map_seq. field. lra. }
  replace (np_tile (linspace0 (2 * PI) L) L) with (np_tile (linspace0 (2 * PI) L) (length th)) by (rewrite LT; reflexivity).
  apply (product_exact L (2 * n + 1) th _ (fun i => PI / (INR n + 1) * ea_om n i)).
  - unfold L. lia.
  - intros z Hz. destruct (In_nth _ _ 0 Hz) as [i [Hi <-]]. rewrite LT in Hi. rewrite NT by auto. apply half_pt_range. auto.
  - rewrite map_length, length_rep, map_length. reflexivity.
  - intros i j Hi Hj. rewrite (nth_map_in _ _ _ _ 0) by (rewrite length_rep, map_length; nia).
    rewrite nth_rep by (auto; rewrite map_length; auto). rewrite (nth_map_in _ _ _ _ 0) by auto. rewrite NT by lia. apply FO.
  - rewrite LT, rsum_scal, R2, EL. field. lra.
  - intros k Hk. rewrite LT. rewrite (rsum_ext _ _ (fun i => PI / (INR n + 1) * (ea_om n i * eval_legendre k (cos (half_pt L i))))).
    + rewrite rsum_scal. unfold rule in RL. rewrite (RL k Hk). ring.
    + intros i Hi. rewrite NT by auto. ring.
Qed.

(** ** gauss *)
Theorem gauss_exact leggauss n azi zen w x g : leggauss (n + 1)%nat = (x, g) ->
  length x = (n + 1)%nat -> length g = (n + 1)%nat -> (forall y, In y x -> -1 <= y <= 1) ->
  (forall k, (k <= 2 * n + 1)%nat -> rsum (n + 1) (fun i => nth i g 0 * nth i x 0 ^ k) = (1 + (-1) ^ k) / (INR k + 1)) ->
  gauss leggauss n = (azi, zen, w) ->
  length azi = ((n + 1) * (2 * n + 2))%nat /\ exact_for sh_real (2 * n + 1) azi zen w.
Proof.
  intros HG Lx Lg Rx Mom E. unfold gauss in E. rewrite HG in E. injection E as <- <- <-.
  rewrite length_tile, length_linspace. split; [reflexivity|].
  pose proof (pos_INR n) as PN. set (L := (2 * n + 2)%nat). assert (EL : INR L = 2 * (INR n + 1)) by (unfold L; rewrite plus_INR, mult_INR; simpl; ring).
  assert (NX : forall i, (i < n + 1)%nat -> cos (nth i (map acos x) 0) = nth i x 0).
  { intros i Hi. rewrite (nth_map_in _ _ _ _ 0) by lia. apply cos_acos. apply Rx. apply nth_In. lia. }
  pose proof (rule_legendre (n + 1) (fun i => nth i g 0) (fun i => nth i (map acos x) 0) (fun k t => cos t ^ k) (2 * n + 1) family_pow) as RL.
  destruct RL as [R2 RL].
  { intros k Hk. exists ((1 + (-1) ^ k) / (INR k + 1)). split; [apply tint_pow|]. rewrite <- Mom by auto. unfold rule. apply rsum_ext. intros i Hi. rewrite NX; auto. }
  pose proof (product_exact L (2 * n + 1) (map acos x) (map (fun w => w * (PI / (INR n + 1))) (np_repeat g L)) (fun i => PI / (INR n + 1) * nth i g 0)) as PE.
  assert (LA : length (map acos x) = (n + 1)%nat) by (rewrite map_length; exact Lx). rewrite LA in PE. apply PE.
  - unfold L. lia.
  - intros z Hz. apply in_map_iff in Hz. destruct Hz as [y [<- _]]. apply acos_bound.
  - rewrite map_length, length_rep, Lg. reflexivity.
  - intros i j Hi Hj. rewrite (nth_map_in _ _ _ _ 0) by (rewrite length_rep, Lg; nia). rewrite nth_rep by (auto; lia). ring.
  - rewrite rsum_scal, R2, EL. field. lra.
  - intros k Hk. rewrite (rsum_ext _ _ (fun i => PI / (INR n + 1) * (nth i g 0 * eval_legendre k (cos (nth i (map acos x) 0))))) by (intros; ring).
    rewrite rsum_scal. unfold rule in RL. rewrite (RL k Hk). ring.
Qed.

(** ** equal_polar_angle *)
Theorem polar_exact n pol w : equal_polar_angle n = (pol, w) ->
  length pol = (2 * n + 1)%nat /\ length w = length pol /\ lsum w = 1 /\
  forall m, (1 <= m <= 2 * n)%nat -> rsum (length pol) (fun j => nth j w 0 * cos (INR m * nth j pol 0)) = 0 /\
                                     rsum (length pol) (fun j => nth j w 0 * sin (INR m * nth j pol 0)) = 0.
Proof.
  intros E. unfold equal_polar_angle in E. set (J := (2 * n + 1)%nat) in *. injection E as <- <-.
  rewrite length_linspace, repeat_length. split; [reflexivity|]. split; [reflexivity|].
  assert (J0 : INR J <> 0) by (apply not_0_INR; unfold J; lia). split.
  - rewrite lsum_rsum, repeat_length. rewrite (rsum_ext _ _ (fun _ => 1 / INR J * 1)) by (intros i Hi; apply nth_repeat_in; auto).
    rewrite rsum_const. field. auto.
  - intros m Hm. destruct (azi_sums J m) as [C S]; [unfold J; lia|]. split.
    + rewrite (rsum_ext _ _ (fun j => (1 / INR J * 1) * cos (INR m * (INR j * (2 * PI / INR J))))).
      * rewrite rsum_scal, C. ring.
      * intros j Hj. rewrite nth_repeat_in, nth_linspace by auto. reflexivity.
    + rewrite (rsum_ext _ _ (fun j => (1 / INR J * 1) * sin (INR m * (INR j * (2 * PI / INR J))))).
      * rewrite rsum_scal, S. ring.
      * intros j Hj. rewrite nth_repeat_in, nth_linspace by auto. reflexivity.
Qed.
