(** Gauss-Legendre quadrature: final forms and examples. *)
From Coq Require Import Lra Lia.
From Verif Require Import Base BaseFacts M_utils M_sig M_sph0 M_sph S_sph S_grids S_parsa M_grids M_lgauss S_lgauss P_sph1 P_sph4 P_sph12 P_grids1 P_grids2 P_grids3 P_grids4 P_gl1 P_gl2 P_gl3 P_gl4 P_gl5.
Open Scope R_scope.
Local Arguments eval_legendre : simpl never.
Local Arguments LD : simpl never.

Lemma f_leggauss ev n : is_eigvalsh (legcompanion (n + 1)) (ev (legcompanion (n + 1))) ->
  exists x g, leggauss ev (n + 1) = Ok (x, g) /\ legendre_roots (n + 1) x /\ gauss_weights (n + 1) x g /\ integrates_powers (2 * n + 1) x g /\
    (forall i, (i < n + 1)%nat -> 0 < nth i g 0) /\
    (forall i, (i < n + 1)%nat -> nth (n - i) x 0 = - nth i x 0 /\ nth (n - i) g 0 = nth i g 0).
Proof.
  replace (n + 1)%nat with (S n) by lia. intros H. destruct (gauss_rule n _ H ev eq_refl) as (g & E & _ & A & B & C & D & F).
  exists (ev (legcompanion (S n))), g. exact (conj E (conj A (conj B (conj C (conj D F))))).
Qed.
Lemma f_sharp ev n x g : is_eigvalsh (legcompanion (n + 1)) (ev (legcompanion (n + 1))) -> leggauss ev (n + 1) = Ok (x, g) ->
  forall g', ~ integrates_powers (2 * n + 2) x g'.
Proof.
  replace (n + 1)%nat with (S n) by lia. intros H E g'. rewrite (leggauss_value n _ H ev eq_refl) in E. injection E as <- _. apply gauss_sharp. exact H.
Qed.
Lemma f_divisors ev n : is_eigvalsh (legcompanion (n + 1)) (ev (legcompanion (n + 1))) ->
  let c := repeat 0 (n + 1) ++ [1] in forall y, In y (ev (legcompanion (n + 1))) ->
  legval c y = 0 /\ 0 < legval (legder c) y * legval (skipn 1 c) y.
Proof.
  replace (n + 1)%nat with (S n) by lia. intros H c y I. set (w := ev (legcompanion (S n))) in *. destruct (eig_roots _ _ H) as (LW & RT).
  destruct (In_nth w y 0 I) as (i & Hi & <-). rewrite LW in Hi. unfold c. rewrite legder_ok, !legval_ok, !series_unit. split; [apply RT; exact Hi|].
  replace (skipn 1 (repeat 0 (S n) ++ [1])) with (repeat 0 n ++ [1]) by reflexivity. rewrite series_unit.
  pose proof (ev_kern n w H i Hi) as K. pose proof (kern_pos n (nth i w 0)) as P. pose proof (pos_INR n).
  assert (0 < (INR n + 1) * (LD (S n) (nth i w 0) * eval_legendre n (nth i w 0))) by (rewrite <- Rmult_assoc, <- K; lra). nra.
Qed.
Lemma f_degree_zero ev : leggauss ev 0 = Err ValueError.
Proof. reflexivity. Qed.
Lemma f_series c x : legval c x = rsum (length c) (fun k => nth k c 0 * eval_legendre k x) /\ derivable_pt_lim (legval c) x (legval (legder c) x).
Proof.
  split; [apply legval_ok|]. rewrite legder_ok. apply (dpl_ext (fun y => series eval_legendre c y)); [intros y; symmetry; apply legval_ok|]. unfold series.
  generalize (length c). intros m. induction m as [|m IH]; [cbn [rsum]; apply derivable_pt_lim_const|]. cbn [rsum].
  exact (derivable_pt_lim_plus _ _ x _ _ IH (derivable_pt_lim_scal _ (nth m c 0) x _ (L_deriv m x))).
Qed.
Lemma f_contract n : (exists w, is_eigvalsh (legcompanion n) w) /\ forall w w', is_eigvalsh (legcompanion n) w -> is_eigvalsh (legcompanion n) w' -> w = w'.
Proof.
  split; [destruct (roots_exist n) as (x & H); exists (map x (seq 0 n)); apply eig_exists; exact H|].
  intros w w' H H'. destruct (eig_roots _ _ H) as (L & RT). destruct (eig_roots _ _ H') as (L' & RT'). apply list_nth_eq; [congruence|]. intros i Hi. rewrite L in Hi. apply (roots_unique n _ _ RT RT' i Hi).
Qed.
Lemma f_grid ev n : is_eigvalsh (legcompanion (n + 1)) (ev (legcompanion (n + 1))) ->
  exists azi zen w, gauss_np ev n = Ok (azi, zen, w) /\ length azi = ((n + 1) * (2 * n + 2))%nat /\ exact_for sh_real (2 * n + 1) azi zen w /\
    forall k, (k < length azi)%nat -> 0 < nth k w 0.
Proof.
  intros H. destruct (f_leggauss ev n H) as (x & g & E & (LX & _) & (LG & _) & IP & GP & _). unfold gauss_np. rewrite E. cbn [bind].
  destruct (gauss (fun _ => (x, g)) n) as [[azi zen] w] eqn:G. exists azi, zen, w. split; [reflexivity|].
  destruct (gauss_final (fun _ => (x, g)) n azi zen w x g eq_refl LX IP G) as (LA & EX). split; [exact LA|]. split; [exact EX|].
  intros k Hk. rewrite LA in Hk. set (m := (2 * n + 2)%nat) in *. assert (Hm : m <> 0%nat) by (unfold m; lia).
  pose proof (Nat.div_mod k m Hm) as DM. pose proof (Nat.mod_upper_bound k m Hm) as MB.
  assert (DB : (k / m < n + 1)%nat) by (apply Nat.div_lt_upper_bound; lia).
  destruct (gauss_points (fun _ => (x, g)) n azi zen w x g eq_refl LX LG G (k / m) (k mod m) DB MB) as (_ & _ & V). fold m in V.
  replace (k / m * m + k mod m)%nat with k in V by lia. rewrite V. apply Rmult_lt_0_compat; [|apply GP; exact DB]. pose proof PI_RGT_0. pose proof (pos_INR n). apply Rdiv_lt_0_compat; lra.
Qed.
Lemma f_legendre n P : is_legendre n P -> forall x, -1 <= x <= 1 -> P x = eval_legendre n x.
Proof. exact (legendre_unique n P). Qed.
(** two nodes: +- 1/sqrt 3, weights 1 *)
Lemma ex_leggauss : exists ev, is_eigvalsh (legcompanion 2) (ev (legcompanion 2)) /\ leggauss ev 2 = Ok ([- (1 / sqrt 3); 1 / sqrt 3], [1; 1]).
Proof.
  pose proof (sqrt_lt_R0 3 ltac:(lra)) as P3. pose proof (sqrt_sqrt 3 ltac:(lra)) as S3. set (s := sqrt 3) in *.
  assert (L2 : forall x, eval_legendre 2 x = (3 * (x * x) - 1) / 2) by (intros x; pose proof (L_S 0 x) as E; rewrite L_0, L_1 in E; simpl INR in E; lra).
  assert (RT : roots 2 (fun i => nth i [- (1 / s); 1 / s] 0)).
  { assert (B : 0 < 1 / s < 1). { assert (1 < s) by (apply Rnot_le_lt; intros G; nra). split; [apply Rdiv_lt_0_compat; lra|]. apply (Rmult_lt_reg_r s); [lra|]. unfold Rdiv. rewrite Rmult_assoc, Rinv_l by lra. lra. }
    assert (SQ : 1 / s * (1 / s) = / 3) by (rewrite <- S3; field; lra). split.
    - intros i Hi. destruct i as [|[|i]]; [| |lia]; cbn [nth]; rewrite L2; split; try lra; nra.
    - intros i j H. assert (i = 0 /\ j = 1)%nat as (-> & ->) by lia. cbn [nth]. lra. }
  pose proof (eig_exists 2 _ RT) as EV. cbn [seq map nth] in EV. exists (fun _ => [- (1 / s); 1 / s]). split; [exact EV|].
  rewrite (leggauss_value 1 _ EV (fun _ => [- (1 / s); 1 / s]) eq_refl). do 2 f_equal. cbn [seq map].
  assert (K : forall i, (i < 2)%nat -> gw 1 (fun i => nth i [- (1 / s); 1 / s] 0) i = 1).
  { intros i Hi. unfold gw, kern. cbn [rsum]. rewrite L_0, L_1. simpl INR. assert (E : nth i [- (1 / s); 1 / s] 0 * nth i [- (1 / s); 1 / s] 0 = / 3).
    { rewrite <- S3. destruct i as [|[|i]]; [| |lia]; cbn [nth]; field; lra. } rewrite !Rmult_assoc, E. field. }
  rewrite !K by lia. reflexivity.
Qed.
