(** Signals as sums of partials, and their transform, any length. *)
From Verif Require Import Base BaseFacts M_utils M_sig M_process M_sph M_parsa2 M_parsa3 M_decoder4 M_process2 M_plot S_magls S_plot P_utils P_sig P_parsa9 P_parsa13 P_magls1 P_magls2 P_magls3 P_magls4 P_ctf6.
Open Scope R_scope.

Lemma fold_odd m (f : nat -> R) : (forall k, (0 < k <= m)%nat -> f (2 * m + 1 - k)%nat = f k) ->
  rsum (2 * m + 1) f = f 0%nat + 2 * rsum m (fun i => f (S i)).
Proof.
  intros E. replace (2 * m + 1)%nat with (S (m + m)) by lia. rewrite rsum_shift, rsum_app.
  assert (C : rsum m (fun i => f (S (m + i))) = rsum m (fun i => f (S i))).
  { rewrite (rsum_rev m (fun i => f (S i))). apply rsum_ext. intros i Hi. rewrite <- (E (S (m - 1 - i))) by lia. f_equal. lia. }
  rewrite C. ring.
Qed.
Lemma fold_any n (f : nat -> R) : (0 < n)%nat -> (forall k, (0 < k < n)%nat -> f (n - k)%nat = f k) ->
  rsum n f = f 0%nat + 2 * rsum ((n - 1) / 2) (fun i => f (S i)) + (if Nat.even n then f (n / 2)%nat else 0).
Proof.
  intros N E. destruct (Nat.even n) eqn:EV.
  - apply Nat.even_spec in EV. destruct EV as (m & ->). replace (2 * m / 2)%nat with m by (rewrite Nat.mul_comm, Nat.div_mul; lia).
    replace ((2 * m - 1) / 2)%nat with (m - 1)%nat.
    2: { replace (2 * m - 1)%nat with (1 + (m - 1) * 2)%nat by lia. rewrite Nat.div_add by lia. reflexivity. }
    assert (rsum (2 * m) f = rsum (2 * m) (fun k => if Nat.eqb k (2 * m) then f 0%nat else f k)) as ->.
    { apply rsum_ext. intros k Hk. rewrite (proj2 (Nat.eqb_neq k (2 * m))) by lia. reflexivity. }
    rewrite fold_even; [|lia|].
    + rewrite (proj2 (Nat.eqb_neq 0 (2 * m))) by lia. rewrite (proj2 (Nat.eqb_neq m (2 * m))) by lia. rewrite rsum_scal.
      rewrite (rsum_ext (m - 1) _ (fun i => f (S i))); [ring|]. intros i Hi. rewrite (proj2 (Nat.eqb_neq (S i) (2 * m))) by lia. reflexivity.
    + intros k Hk. rewrite (proj2 (Nat.eqb_neq k (2 * m))) by lia. destruct (Nat.eq_dec k 0) as [->|K]; [rewrite Nat.sub_0_r, Nat.eqb_refl; reflexivity|].
      rewrite (proj2 (Nat.eqb_neq (2 * m - k) (2 * m))) by lia. apply E. lia.
  - assert (OD : Nat.odd n = true) by (rewrite <- Nat.negb_even, EV; reflexivity). apply Nat.odd_spec in OD. destruct OD as (m & ->).
    replace ((2 * m + 1 - 1) / 2)%nat with m by (replace (2 * m + 1 - 1)%nat with (m * 2)%nat by lia; rewrite Nat.div_mul; lia).
    rewrite fold_odd; [ring|]. intros k Hk. apply E. lia.
Qed.

Section Partials.
Variable n : nat.
Hypothesis Hn : (0 < n)%nat.
Let th (j t : nat) := 2 * PI * INR (j * t) / INR n.
Lemma nz : INR n <> 0. Proof. apply not_0_INR. lia. Qed.
Lemma th_Z j t : th j t = 2 * PI * INR t * IZR (Z.of_nat j) / INR n.
Proof. unfold th. rewrite mult_INR, <- INR_IZR_INZ. f_equal. ring. Qed.
Lemma th_com j t : th j t = th t j.
Proof. unfold th. rewrite Nat.mul_comm. reflexivity. Qed.
Lemma small_mod (v : Z) : (- Z.of_nat n < v < Z.of_nat n)%Z -> (v mod Z.of_nat n =? 0)%Z = (v =? 0)%Z.
Proof.
  intros B. destruct (Z.eqb_spec v 0) as [->|NE]; [reflexivity|]. apply Z.eqb_neq. intros E. apply Z.mod_divide in E; [|lia]. destruct E as [q E]. assert (q = 0)%Z by nia. subst q. lia.
Qed.
Lemma sum_cos_minus j k : rsum n (fun t => cos (th j t - th k t)) = if ((Z.of_nat j - Z.of_nat k) mod Z.of_nat n =? 0)%Z then INR n else 0.
Proof.
  rewrite <- cos_sum by exact Hn. apply rsum_ext. intros t _. rewrite !th_Z, minus_IZR. f_equal. field. apply nz.
Qed.
Lemma sum_cos_plus j k : rsum n (fun t => cos (th j t + th k t)) = if ((Z.of_nat j + Z.of_nat k) mod Z.of_nat n =? 0)%Z then INR n else 0.
Proof.
  rewrite <- cos_sum by exact Hn. apply rsum_ext. intros t _. rewrite !th_Z, plus_IZR. f_equal. field. apply nz.
Qed.
Lemma sum_sin j k : rsum n (fun t => sin (th j t - th k t)) = 0 /\ rsum n (fun t => sin (th j t + th k t)) = 0.
Proof.
  split.
  - rewrite <- (sin_sum n (Z.of_nat j - Z.of_nat k) Hn). apply rsum_ext. intros t _. rewrite !th_Z, minus_IZR. f_equal. field. apply nz.
  - rewrite <- (sin_sum n (Z.of_nat j + Z.of_nat k) Hn). apply rsum_ext. intros t _. rewrite !th_Z, plus_IZR. f_equal. field. apply nz.
Qed.
(** a partial against bin k *)
Lemma partial_cos j k f : (0 < j)%nat -> (2 * j < n)%nat -> (2 * k <= n)%nat ->
  rsum n (fun t => cos (th j t + f) * cos (th k t)) = if Nat.eqb j k then INR n / 2 * cos f else 0.
Proof.
  intros J1 J2 K. rewrite (rsum_ext n _ (fun t => / 2 * (cos f * (cos (th j t - th k t) + cos (th j t + th k t)) - sin f * (sin (th j t - th k t) + sin (th j t + th k t))))).
  - rewrite rsum_scal, rsum_minus, !rsum_scal, !rsum_plus, sum_cos_minus, sum_cos_plus. destruct (sum_sin j k) as [-> ->].
    rewrite !small_mod by lia. rewrite (proj2 (Z.eqb_neq (Z.of_nat j + Z.of_nat k) 0)) by lia.
    destruct (Nat.eqb_spec j k) as [->|NE]; [rewrite Z.sub_diag; cbn [Z.eqb]; field|rewrite (proj2 (Z.eqb_neq (Z.of_nat j - Z.of_nat k) 0)) by lia; ring].
  - intros t _. rewrite cos_plus, (cos_minus (th j t)), (cos_plus (th j t)), (sin_minus (th j t)), (sin_plus (th j t)). field.
Qed.
Lemma partial_sin j k f : (0 < j)%nat -> (2 * j < n)%nat -> (2 * k <= n)%nat ->
  rsum n (fun t => cos (th j t + f) * sin (th k t)) = if Nat.eqb j k then - (INR n / 2 * sin f) else 0.
Proof.
  intros J1 J2 K. rewrite (rsum_ext n _ (fun t => / 2 * (cos f * (sin (th j t + th k t) - sin (th j t - th k t)) - sin f * (cos (th j t - th k t) - cos (th j t + th k t))))).
  - rewrite rsum_scal, rsum_minus, !rsum_scal, !rsum_minus, sum_cos_minus, sum_cos_plus. destruct (sum_sin j k) as [-> ->].
    rewrite !small_mod by lia. rewrite (proj2 (Z.eqb_neq (Z.of_nat j + Z.of_nat k) 0)) by lia.
    destruct (Nat.eqb_spec j k) as [->|NE]; [rewrite Z.sub_diag; cbn [Z.eqb]; field|rewrite (proj2 (Z.eqb_neq (Z.of_nat j - Z.of_nat k) 0)) by lia; ring].
  - intros t _. rewrite cos_plus, (cos_minus (th j t)), (cos_plus (th j t)), (sin_minus (th j t)), (sin_plus (th j t)). field.
Qed.
Lemma th0 t : th 0 t = 0.
Proof. unfold th. cbn [Nat.mul INR]. field. apply nz. Qed.
Lemma one_cos k : (2 * k <= n)%nat -> rsum n (fun t => cos (th k t)) = if Nat.eqb k 0 then INR n else 0.
Proof.
  intros K. rewrite (rsum_ext n _ (fun t => cos (th k t - th 0 t))) by (intros t _; rewrite th0; f_equal; ring). rewrite sum_cos_minus, small_mod by lia.
  destruct (Nat.eqb_spec k 0) as [->|]; [reflexivity|]. rewrite (proj2 (Z.eqb_neq (Z.of_nat k - Z.of_nat 0) 0)) by lia. reflexivity.
Qed.
Lemma one_sin k : rsum n (fun t => sin (th k t)) = 0.
Proof. rewrite (rsum_ext n _ (fun t => sin (th k t - th 0 t))) by (intros t _; rewrite th0; f_equal; ring). apply sum_sin. Qed.
Lemma alt_th h t : (n = 2 * h)%nat -> (-1) ^ t = cos (th h t).
Proof.
  intros E. rewrite pow_m1_cos. f_equal. unfold th. rewrite mult_INR. pose proof nz as N0. assert (NH : INR n = 2 * INR h) by (rewrite E, mult_INR; reflexivity). rewrite NH in *. field. lra.
Qed.
Lemma alt_cos k : (2 * k <= n)%nat -> Nat.even n = true -> rsum n (fun t => (-1) ^ t * cos (th k t)) = if Nat.eqb (2 * k) n then INR n else 0.
Proof.
  intros K EV. apply Nat.even_spec in EV. destruct EV as (h & E). rewrite (rsum_ext n _ (fun t => / 2 * (cos (th h t - th k t) + cos (th h t + th k t)))).
  - rewrite rsum_scal, rsum_plus, sum_cos_minus, sum_cos_plus. rewrite small_mod by lia. destruct (Nat.eqb_spec (2 * k) n) as [Q|NE].
    + replace (Z.of_nat h - Z.of_nat k)%Z with 0%Z by lia. replace (Z.of_nat h + Z.of_nat k)%Z with (Z.of_nat n) by lia. rewrite Z.mod_same by lia. cbn [Z.eqb]. field.
    + rewrite small_mod by lia. rewrite (proj2 (Z.eqb_neq _ 0)) by lia. rewrite (proj2 (Z.eqb_neq (Z.of_nat h + Z.of_nat k) 0)) by lia. ring.
  - intros t _. rewrite (alt_th h t E), cos_plus, cos_minus. field.
Qed.
Lemma alt_sin k : Nat.even n = true -> rsum n (fun t => (-1) ^ t * sin (th k t)) = 0.
Proof.
  intros EV. apply Nat.even_spec in EV. destruct EV as (h & E). rewrite (rsum_ext n _ (fun t => / 2 * (sin (th h t + th k t) - sin (th h t - th k t)))).
  - rewrite rsum_scal, rsum_minus. destruct (sum_sin h k) as [-> ->]. ring.
  - intros t _. rewrite (alt_th h t E), sin_plus, sin_minus. field.
Qed.

Section Forward.
Variables (c0 cN : R) (A phi : nat -> R) (x : list R) (k : nat).
Hypothesis HP : partials n c0 A phi cN x.
Hypothesis HK : (2 * k <= n)%nat.
Lemma against (g : nat -> R) (one alt : R) (p : nat -> R) :
  rsum n g = one -> (Nat.even n = true -> rsum n (fun t => (-1) ^ t * g t) = alt) ->
  (forall i, (i < (n - 1) / 2)%nat -> rsum n (fun t => cos (th (S i) t + phi (S i)) * g t) = p (S i)) ->
  rsum n (fun t => nth t x 0 * g t) = c0 * one + rsum ((n - 1) / 2) (fun i => A (S i) * p (S i)) + (if Nat.even n then cN * alt else 0).
Proof.
  intros G1 G2 G3. destruct HP as (_ & E).
  rewrite (rsum_ext n _ (fun t => c0 * g t + rsum ((n - 1) / 2) (fun i => A (S i) * (cos (th (S i) t + phi (S i)) * g t)) + (if Nat.even n then cN else 0) * ((-1) ^ t * g t))).
  - rewrite !rsum_plus, rsum_scal, G1. f_equal.
    + f_equal. rewrite rsum_swap. apply rsum_ext. intros i Hi. rewrite rsum_scal, G3 by exact Hi. reflexivity.
    + rewrite rsum_scal. destruct (Nat.even n); [rewrite G2 by reflexivity; reflexivity|ring].
  - intros t Ht. rewrite E by exact Ht.
    rewrite (rsum_ext ((n - 1) / 2) (fun i => A (S i) * (cos (th (S i) t + phi (S i)) * g t)) (fun i => A (S i) * cos (2 * PI * INR (S i * t) / INR n + phi (S i)) * g t)) by (intros; unfold th; ring).
    rewrite rsum_scal_r. destruct (Nat.even n); ring.
Qed.
Lemma half_lt i : (i < (n - 1) / 2)%nat -> (2 * S i < n)%nat.
Proof. intros H. pose proof (Nat.div_mod (n - 1) 2 ltac:(lia)). lia. Qed.
Lemma pick (q : nat -> R) : rsum ((n - 1) / 2) (fun i => A (S i) * (if Nat.eqb (S i) k then q (S i) else 0)) = if (Nat.eqb k 0 || Nat.eqb (2 * k) n)%bool then 0 else A k * q k.
Proof.
  destruct (Nat.eqb_spec k 0) as [K0|K0]; [|destruct (Nat.eqb_spec (2 * k) n) as [KN|KN]]; cbn [orb].
  - apply rsum_0. intros i _. rewrite (proj2 (Nat.eqb_neq (S i) k)) by lia. ring.
  - apply rsum_0. intros i Hi. apply half_lt in Hi. rewrite (proj2 (Nat.eqb_neq (S i) k)) by lia. ring.
  - assert (KH : (k - 1 < (n - 1) / 2)%nat) by (pose proof (Nat.div_mod (n - 1) 2 ltac:(lia)); pose proof (Nat.mod_upper_bound (n - 1) 2 ltac:(lia)); lia).
    rewrite (rsum_single _ (k - 1)); [|exact KH|].
    + replace (S (k - 1)) with k by lia. rewrite Nat.eqb_refl. reflexivity.
    + intros i _ NE. rewrite (proj2 (Nat.eqb_neq (S i) k)) by lia. ring.
Qed.
Lemma dft_partials : dft n x k =
  (INR n * (if Nat.eqb k 0 then c0 else if Nat.eqb (2 * k) n then cN else A k * cos (phi k) / 2),
   INR n * (if (Nat.eqb k 0 || Nat.eqb (2 * k) n)%bool then 0 else A k * sin (phi k) / 2)).
Proof.
  assert (TH : forall g : R -> R, rsum n (fun t => nth t x 0 * g (2 * PI * INR (t * k) / INR n)) = rsum n (fun t => nth t x 0 * g (th k t))) by (intros g; apply rsum_ext; intros t _; unfold th; rewrite Nat.mul_comm; reflexivity).
  unfold dft. rewrite (TH cos), (TH sin). f_equal.
  - rewrite (against (fun t => cos (th k t)) (if Nat.eqb k 0 then INR n else 0) (if Nat.eqb (2 * k) n then INR n else 0) (fun j => if Nat.eqb j k then INR n / 2 * cos (phi j) else 0)).
    + rewrite (pick (fun j => INR n / 2 * cos (phi j))). destruct (Nat.eqb_spec k 0) as [->|K0].
      * cbn [orb]. rewrite (proj2 (Nat.eqb_neq (2 * 0) n)) by lia. destruct (Nat.even n); ring.
      * destruct (Nat.eqb_spec (2 * k) n) as [KN|KN]; cbn [orb].
        -- rewrite <- KN at 1. rewrite Nat.even_mul. cbn [Nat.even orb]. ring.
        -- destruct (Nat.even n); field.
    + apply one_cos. exact HK.
    + intros EV. apply alt_cos; assumption.
    + intros i Hi. apply partial_cos; [lia|apply half_lt; exact Hi|exact HK].
  - rewrite (against (fun t => sin (th k t)) 0 0 (fun j => if Nat.eqb j k then - (INR n / 2 * sin (phi j)) else 0)).
    + rewrite (pick (fun j => - (INR n / 2 * sin (phi j)))). destruct (Nat.eqb k 0 || Nat.eqb (2 * k) n)%bool; destruct (Nat.even n); field.
    + apply one_sin.
    + intros EV. apply alt_sin; exact EV.
    + intros i Hi. apply partial_sin; [lia|apply half_lt; exact Hi|exact HK].
Qed.
End Forward.

(** every signal is such a sum *)
Lemma inversion x t : (t < n)%nat -> nth t x 0 = / INR n * rsum n (fun k => fst (dft n x k) * cos (th k t) - snd (dft n x k) * sin (th k t)).
Proof.
  intros Ht. unfold dft. cbn [fst snd].
  rewrite (rsum_ext n _ (fun k => rsum n (fun j => nth j x 0 * cos (th j k - th t k)))).
  - rewrite rsum_swap. rewrite (rsum_single n t); [|exact Ht|].
    + rewrite rsum_scal, sum_cos_minus, Z.sub_diag. rewrite Z.mod_0_l by lia. cbn [Z.eqb]. field. apply nz.
    + intros j Hj NE. rewrite rsum_scal, sum_cos_minus, small_mod by lia. rewrite (proj2 (Z.eqb_neq _ 0)) by lia. ring.
  - intros k _. rewrite Ropp_mult_distr_l_reverse. unfold Rminus at 1. rewrite Ropp_involutive. rewrite <- !rsum_scal_r, <- rsum_plus. apply rsum_ext. intros j _.
    rewrite cos_minus. rewrite (th_com t k). unfold th. ring.
Qed.
Lemma dft_sym x k : (0 < k < n)%nat -> dft n x (n - k) = (fst (dft n x k), - snd (dft n x k)).
Proof.
  intros K. pose proof nz as N0. assert (T : forall j, 2 * PI * INR (j * (n - k)) / INR n = - (2 * PI * INR (j * k) / INR n) + 2 * PI * IZR (Z.of_nat j)).
  { intros j. rewrite !mult_INR, minus_INR, <- INR_IZR_INZ by lia. field. exact N0. }
  unfold dft. cbn [fst snd]. f_equal.
  - apply rsum_ext. intros j _. rewrite T, period_Z_cos, cos_neg. reflexivity.
  - f_equal. rewrite <- rsum_opp. apply rsum_ext. intros j _. rewrite T, period_Z_sin, sin_neg. ring.
Qed.
Lemma has_partials x : length x = n -> exists c0 A phi cN, partials n c0 A phi cN x /\ forall k, 0 <= A k.
Proof.
  intros L. pose proof nz as N0. assert (NP : 0 < INR n) by (apply lt_0_INR; exact Hn).
  set (X := dft n x). exists (fst (X 0%nat) / INR n), (fun k => 2 / INR n * modulus (X k)), (fun k => arg (X k)), (fst (X (n / 2)%nat) / INR n). split.
  2: { intros k. apply Rmult_le_pos; [|apply sqrt_pos]. apply Rlt_le, Rdiv_lt_0_compat; lra. }
  split; [exact L|]. intros t Ht. rewrite (inversion x t Ht). fold X. rewrite fold_any; [|exact Hn|].
  - rewrite th0, cos_0, sin_0.
    assert (P : forall k, 2 / INR n * modulus (X k) * cos (2 * PI * INR (k * t) / INR n + arg (X k)) = 2 / INR n * (fst (X k) * cos (th k t) - snd (X k) * sin (th k t))).
    { intros k. fold (th k t). rewrite cos_plus. destruct (arctan2_polar (snd (X k)) (fst (X k))) as (E1 & E2). cbn zeta in *. unfold modulus, arg.
      replace (fst (X k) ^ 2 + snd (X k) ^ 2) with (fst (X k) * fst (X k) + snd (X k) * snd (X k)) by ring. set (rho := sqrt _) in *. set (ph := arctan2 _ _) in *. transitivity (2 / INR n * (rho * cos ph * cos (th k t) - rho * sin ph * sin (th k t))); [ring|]. rewrite E1, E2. reflexivity. }
    rewrite (rsum_ext ((n - 1) / 2) (fun i => 2 / INR n * modulus (X (S i)) * cos (2 * PI * INR (S i * t) / INR n + arg (X (S i)))) (fun i => 2 / INR n * (fst (X (S i)) * cos (th (S i) t) - snd (X (S i)) * sin (th (S i) t)))) by (intros; apply P).
    rewrite rsum_scal. destruct (Nat.even n) eqn:EV; [|field; exact N0].
    apply Nat.even_spec in EV. destruct EV as (h & E). replace (n / 2)%nat with h by (rewrite E, Nat.mul_comm, Nat.div_mul; lia).
    rewrite (alt_th h t E). assert (S0 : sin (th h t) = 0).
    { pose proof (alt_th h t E) as C. assert (C2' : cos (th h t) * cos (th h t) = 1) by (rewrite <- C; rewrite <- pow_add; replace (t + t)%nat with (2 * t)%nat by lia; apply pow_1_even).
      pose proof (sin2_cos2 (th h t)) as Q. unfold Rsqr in Q. nra. }
    rewrite S0. field. exact N0.
  - intros k Hk. unfold X. rewrite dft_sym by exact Hk. cbn [fst snd].
    assert (T : th (n - k) t = - th k t + 2 * PI * IZR (Z.of_nat t)) by (unfold th; rewrite !mult_INR, minus_INR, <- INR_IZR_INZ by lia; field; exact N0).
    rewrite T, period_Z_cos, period_Z_sin, cos_neg, sin_neg. ring.
Qed.
End Partials.
