(** hrirs_ctf: properties of the correction, flat sets, invariances. *)
From Verif Require Import Base BaseFacts M_utils M_sig M_process M_sph M_grids M_parsa2 M_parsa3 M_decoder4 M_process2 S_process S_magls S_ctf P_utils P_sig P_parsa3 P_parsa9 P_sph6 P_sph7 P_proc2 P_proc5 P_magls1 P_magls2 P_magls3 P_magls4 P_magls5 X_process P_ctf1 P_ctf2 P_ctf3.
Open Scope R_scope.

Lemma weight_range lo hi bins k : 0 <= inversion_weight lo hi bins k <= 1.
Proof.
  unfold inversion_weight. destruct (Nat.leb hi k); [pose proof (COS_bound (PI * INR (k - hi + 1) / INR (bins - hi))); lra|].
  destruct (Nat.ltb k lo); [pose proof (COS_bound (PI * INR k / INR lo)); lra|lra].
Qed.
Lemma correction_band lo hi bins i s k : (lo <= k < hi)%nat -> s k <> 0 -> correction lo hi bins i s k * s k = reference_level bins i s.
Proof.
  intros H S0. unfold correction, inversion_weight. destruct (Nat.leb_spec hi k); [lia|]. destruct (Nat.ltb_spec k lo); [lia|]. field. exact S0.
Qed.
Lemma correction_ends lo hi bins i s : (hi < bins)%nat -> ((0 < lo)%nat -> (0 < hi)%nat -> correction lo hi bins i s 0 = 1) /\ correction lo hi bins i s (bins - 1) = 1.
Proof.
  intros Hh. unfold correction, inversion_weight. split.
  - intros Hl H0. destruct (Nat.leb_spec hi 0); [lia|]. destruct (Nat.ltb_spec 0 lo); [|lia]. cbn [INR]. unfold Rdiv. rewrite Rmult_0_r, Rmult_0_l, cos_0. ring.
  - destruct (Nat.leb_spec hi (bins - 1)); [|lia]. replace (bins - 1 - hi + 1)%nat with (bins - hi)%nat by lia.
    replace (PI * INR (bins - hi) / INR (bins - hi)) with PI by (field; apply not_0_INR; lia). rewrite cos_PI. lra.
Qed.
Lemma correction_between lo hi bins i s k : 0 < s k -> 0 < reference_level bins i s ->
  Rmin 1 (reference_level bins i s / s k) <= correction lo hi bins i s k <= Rmax 1 (reference_level bins i s / s k).
Proof.
  intros P Q. unfold correction. set (q := reference_level bins i s / s k). destruct (weight_range lo hi bins k). set (f := inversion_weight lo hi bins k) in *.
  unfold Rmin, Rmax. destruct (Rle_dec 1 q); split; nra.
Qed.
Lemma reference_const bins i s c : (5 <= i < bins)%nat -> (forall k, (k < bins)%nat -> s k = c) -> reference_level bins i s = c.
Proof.
  intros Hi E. unfold reference_level. set (m := (Nat.min (i + 5) bins - (i - 5))%nat). rewrite (rsum_ext m _ (fun _ => c * 1)) by (intros j Hj; rewrite E by (unfold m in *; lia); ring).
  rewrite rsum_scal, rsum_const. field. apply not_0_INR. unfold m. lia.
Qed.
Lemma reference_pos bins i s : (5 <= i < bins)%nat -> (forall k, (k < bins)%nat -> 0 < s k) -> 0 < reference_level bins i s.
Proof.
  intros Hi P. unfold reference_level. set (m := (Nat.min (i + 5) bins - (i - 5))%nat). assert (Hm : (1 <= m)%nat) by (unfold m; lia).
  apply Rdiv_lt_0_compat; [|apply lt_0_INR; lia]. assert (B : (i - 5 + m <= bins)%nat) by (unfold m; lia). clearbody m. destruct m as [|m]; [lia|]. rewrite rsum_shift.
  assert (0 <= rsum m (fun j => s (i - 5 + S j)%nat)) by (apply rsum_nonneg; intros j Hj; left; apply P; lia). pose proof (P (i - 5 + 0)%nat ltac:(lia)). lra.
Qed.
(** ** flat sets *)
Lemma modulus_polar2 r f : modulus (polar r f) ^ 2 = r ^ 2.
Proof.
  unfold modulus, polar. cbn [fst snd]. replace ((r * cos f) ^ 2 + (r * sin f) ^ 2) with (r ^ 2).
  - rewrite pow2_sqrt; [reflexivity|apply pow2_ge_0].
  - pose proof (sin2_cos2 f) as E. unfold Rsqr in E. replace ((r * cos f) ^ 2 + (r * sin f) ^ 2) with (r ^ 2 * (sin f * sin f + cos f * cos f)) by ring. rewrite E. ring.
Qed.
Lemma energy_pulses w x taps n a k : all_pulses x taps a -> (taps <= n)%nat -> length x = length w -> energy w x n k = rsum (length w) (fun g => nth g w 0 * a g ^ 2).
Proof.
  intros P T L. unfold energy. apply rsum_ext. intros g Hg. destruct (P g ltac:(lia)) as (d & Hd & E). rewrite (dft_pulse n _ d (a g) k) by (lia || exact E). rewrite modulus_polar2. reflexivity.
Qed.
Lemma synth_one m t : (1 <= m)%nat -> (t < 2 * m)%nat -> synth m (fun _ => (1, 0)) t = if Nat.eqb t 0 then 1 else 0.
Proof.
  intros Hm Ht. rewrite (synth_ext m _ (dft (2 * m) [1])) by (exact Hm || (intros k Hk; rewrite (dft_pulse (2 * m) [1] 0 1 k) by (lia || (intros [|[|j]]; reflexivity)); unfold polar; cbn [INR]; replace (- (2 * PI * 0 / INR (2 * m)) * INR k) with 0 by (unfold Rdiv; ring); rewrite cos_0, sin_0; f_equal; ring)).
  rewrite synth_dft by assumption. destruct t as [|[|t]]; reflexivity.
Qed.
Lemma roll_zero t d n : (t < n)%nat -> (d <= n)%nat -> (0 < d)%nat -> ((t + (n - d)) mod n = 0 <-> t = d mod n)%nat.
Proof.
  intros T D D0. destruct (Nat.eq_dec d n) as [->|].
  - rewrite Nat.sub_diag, Nat.add_0_r, Nat.mod_small, Nat.mod_same by lia. reflexivity.
  - rewrite (Nat.mod_small d n) by lia. split; intros H.
    + destruct (Nat.lt_ge_cases (t + (n - d)) n); [rewrite Nat.mod_small in H by lia; lia|].
      replace (t + (n - d))%nat with (t - d + 1 * n)%nat in H by lia. rewrite Nat.mod_add, Nat.mod_small in H by lia. lia.
    + subst. replace (d + (n - d))%nat with n by lia. apply Nat.mod_same. lia.
Qed.
Lemma flat_linear taps H e : (1 <= taps)%nat -> (forall k, (k <= 8 * taps)%nat -> H k = 1) -> linear_eq taps H e ->
  length e = taps /\ forall t, (t < taps)%nat -> nth t e 0 = if Nat.eqb t (taps / 2 + 1) then hann taps t else 0.
Proof.
  intros T H1 [L E]. split; [exact L|]. intros t Ht. rewrite E by exact Ht. set (u := ((t + (16 * taps - (taps / 2 + 1))) mod (16 * taps))%nat).
  assert (Hu : (u < 16 * taps)%nat) by (apply Nat.mod_upper_bound; lia).
  rewrite (synth_ext _ _ (fun _ => (1, 0))) by (lia || (intros k Hk; rewrite H1 by exact Hk; reflexivity)). rewrite synth_one by lia.
  assert (D2 : (taps / 2 <= taps)%nat) by (apply Nat.div_le_upper_bound; lia).
  pose proof (roll_zero t (taps / 2 + 1) (16 * taps) ltac:(lia) ltac:(lia) ltac:(lia)) as RZ. fold u in RZ. rewrite (Nat.mod_small (taps / 2 + 1)) in RZ by lia.
  destruct (Nat.eqb_spec u 0), (Nat.eqb_spec t (taps / 2 + 1)); try (exfalso; tauto); ring.
Qed.
Lemma flat_minimum minph taps H e : (1 <= taps)%nat -> (forall k, (k <= 8 * taps)%nat -> H k = 1) -> minimum_eq minph taps H e ->
  exists x, length x = (16 * taps)%nat /\ (forall t, (t < 16 * taps)%nat -> nth t x 0 = if Nat.eqb t (8 * taps) then 1 else 0) /\ e = firstn taps (minph x).
Proof.
  intros T H1 (x & L & E & ->). exists x. split; [exact L|]. split; [|reflexivity]. intros t Ht. rewrite E by exact Ht. set (u := ((t + 8 * taps) mod (16 * taps))%nat).
  assert (Hu : (u < 16 * taps)%nat) by (apply Nat.mod_upper_bound; lia).
  rewrite (synth_ext _ _ (fun _ => (1, 0))) by (lia || (intros k Hk; rewrite H1 by exact Hk; f_equal; ring)). rewrite synth_one by lia.
  pose proof (roll_zero t (8 * taps) (16 * taps) ltac:(lia) ltac:(lia) ltac:(lia)) as RZ. replace (16 * taps - 8 * taps)%nat with (8 * taps)%nat in RZ by lia. fold u in RZ. rewrite (Nat.mod_small (8 * taps)) in RZ by lia.
  destruct (Nat.eqb_spec u 0), (Nat.eqb_spec t (8 * taps)); try (exfalso; tauto); ring.
Qed.
Lemma ctf_flat pinv cond minph hr (mp : bool) lims gw w lo hi i al ar : weights_used pinv cond hr gw w -> ctf_setup hr w lims lo hi i -> (5 <= i)%nat ->
  all_pulses (h_left hr) (h_taps hr) al -> all_pulses (h_right hr) (h_taps hr) ar ->
  let el := rsum (length w) (fun g => nth g w 0 * al g ^ 2) in let er := rsum (length w) (fun g => nth g w 0 * ar g ^ 2) in
  0 <= el -> 0 <= er -> 0 < el + er ->
  exists e, hrirs_ctf pinv cond minph hr mp lims gw = Ok (Some e) /\
    if mp then exists x, length x = (16 * h_taps hr)%nat /\ (forall t, (t < 16 * h_taps hr)%nat -> nth t x 0 = if Nat.eqb t (8 * h_taps hr) then 1 else 0) /\ e = firstn (h_taps hr) (minph x)
    else length e = h_taps hr /\ forall t, (t < h_taps hr)%nat -> nth t e 0 = if Nat.eqb t (h_taps hr / 2 + 1) then hann (h_taps hr) t else 0.
Proof.
  intros W St Hi PL PR el er N1 N2 P. pose proof St as (F & T & LW & LL & LR & _ & _ & BI). destruct BI as [BI _]. rewrite half16 in BI. set (n := (16 * h_taps hr)%nat).
  assert (EL : forall k, energy w (h_left hr) n k = el) by (intros k; apply (energy_pulses _ _ (h_taps hr)); [exact PL|unfold n; lia|lia]).
  assert (ER : forall k, energy w (h_right hr) n k = er) by (intros k; apply (energy_pulses _ _ (h_taps hr)); [exact PR|unfold n; lia|lia]).
  destruct (ctf_main pinv cond minph hr mp lims gw w lo hi i W St) as (s & e & E & C & PS & Q); [intros k Hk; fold n; rewrite EL, ER; auto|exact Hi|]. fold n in C.
  exists e. split; [exact E|].
  set (c := (1 / 2 * sqrt el / (4 * PI) + 1 / 2 * sqrt er / (4 * PI)) / 2).
  assert (SC : forall k, (k < 8 * h_taps hr + 1)%nat -> s k = c).
  { intros k Hk. destruct (C k) as (a & b & Oa & Ob & ->); [unfold n; rewrite half16; lia|].
    rewrite (octave_const _ _ _ _ (1 / 2 * sqrt el / (4 * PI)) _ _) with (2 := Oa) by (intros j Hj; unfold level; rewrite EL; reflexivity).
    rewrite (octave_const _ _ _ _ (1 / 2 * sqrt er / (4 * PI)) _ _) with (2 := Ob) by (intros j Hj; unfold level; rewrite ER; reflexivity). reflexivity. }
  assert (H1 : forall k, (k <= 8 * h_taps hr)%nat -> correction lo hi (8 * h_taps hr + 1) i s k = 1).
  { intros k Hk. unfold correction. rewrite (reference_const _ i s c) by (lia || exact SC). rewrite SC by lia. pose proof (PS k Hk) as Pk. rewrite SC in Pk by lia. field. lra. }
  destruct mp; [apply (flat_minimum minph _ _ _ T H1 Q)|apply (flat_linear _ _ _ T H1 Q)].
Qed.
(** ** invariances *)
Lemma smoothing_scal a c : frac_octave_smoothing (arr1 (map (Rmult c) a)) 1 true = let* o := frac_octave_smoothing (arr1 a) 1 true in Ok (map (option_map (Rmult c)) o).
Proof.
  destruct (octave_ok a 1 true ltac:(lra)) as (o & -> & L & V). destruct (octave_ok (map (Rmult c) a) 1 true ltac:(lra)) as (o' & -> & L' & V'). rewrite map_length in *. cbn [bind].
  f_equal. rewrite map_map. cbn [option_map]. rewrite <- (map_map (Rmult c) Some). f_equal.
  apply (nth_ext _ _ 0 0); [rewrite map_length; lia|]. intros k Hk. rewrite (nth_map_in _ o k 0 0) by lia.
  apply (octave_unique true 1 (length a) (fun k => nth k (map (Rmult c) a) 0) (fun k => c * nth k a 0) k); [lia|lra| |apply V'; lia|apply octave_scal; apply V; lia].
  intros j Hj. apply (nth_map_in (Rmult c) a j 0 0). exact Hj.
Qed.
Lemma all_some_scal (c : R) l : all_some (map (option_map (Rmult c)) l) = option_map (map (Rmult c)) (all_some l).
Proof. induction l as [|[x|] l IH]; [reflexivity| |reflexivity]. cbn [map option_map all_some]. rewrite IH. destruct (all_some l); reflexivity. Qed.
Lemma lsum_scal c l : lsum (map (Rmult c) l) = c * lsum l.
Proof. induction l as [|x l IH]; cbn [map lsum]; [ring|]. rewrite IH. ring. Qed.
Lemma slice_map {A B} (f : A -> B) l a b : slice (map f l) a b = map f (slice l a b).
Proof. unfold slice. rewrite map_length, skipn_map, firstn_map. reflexivity. Qed.
Lemma inverse_scal c fw s i : 0 < c -> ctf_inverse fw (map (Rmult c) s) i = ctf_inverse fw s i.
Proof.
  intros P. unfold ctf_inverse. rewrite slice_map, map_length. set (win := slice s _ _). destruct (Nat.eqb (length win) 0); [reflexivity|].
  assert (E : np_mean (map Rabs (map (Rmult c) win)) = c * np_mean (map Rabs win)).
  { unfold np_mean. rewrite map_map. rewrite (map_ext _ (fun x => c * Rabs x)) by (intros x; rewrite Rabs_mult, (Rabs_pos_eq c) by lra; reflexivity).
    rewrite <- (map_map Rabs (Rmult c)), lsum_scal, !map_length. unfold Rdiv. ring. }
  rewrite E. set (m := np_mean (map Rabs win)).
  assert (RQ : forall x, Reqb (c * x) 0 = Reqb x 0) by (intros x; unfold Reqb; destruct (Req_EM_T (c * x) 0), (Req_EM_T x 0); auto; exfalso; nra).
  rewrite RQ. destruct (Reqb m 0) eqn:M0; [reflexivity|].
  assert (EX : existsb (fun x => Reqb x 0) (map (Rmult c) s) = existsb (fun x => Reqb x 0) s) by (clear -RQ; induction s as [|x s IH]; [reflexivity|]; cbn [map existsb]; rewrite RQ, IH; reflexivity).
  rewrite EX. destruct (existsb (fun x => Reqb x 0) s) eqn:E0; [reflexivity|]. f_equal.
  unfold Reqb in M0. destruct (Req_EM_T m 0); [discriminate|]. clearbody m. clear -P n E0. revert fw. induction s as [|x s IH]; intros [|f fw]; try reflexivity. cbn [map combine].
  cbn [existsb] in E0. apply Bool.orb_false_iff in E0. destruct E0 as [X0 E0]. rewrite IH by exact E0. f_equal. cbn [fst snd]. unfold Reqb in X0. destruct (Req_EM_T x 0); [discriminate|]. field. repeat split; lra.
Qed.
Lemma rest_scal minph mp taps fw i c al ar : 0 < c -> ctf_rest minph mp taps fw i (option_map (map (Rmult c)) al) (option_map (map (Rmult c)) ar) = ctf_rest minph mp taps fw i al ar.
Proof.
  intros P. unfold ctf_rest. destruct al as [al|]; [|reflexivity]. destruct ar as [ar|]; [|reflexivity]. cbn [option_map]. rewrite !smoothing_scal.
  destruct (frac_octave_smoothing (arr1 al) 1 true) as [sl|]; [|reflexivity]. cbn [bind]. destruct (frac_octave_smoothing (arr1 ar) 1 true) as [sr|]; [|reflexivity]. cbn [bind].
  rewrite !all_some_scal. destruct (all_some sl) as [ul|]; [|reflexivity]. destruct (all_some sr) as [ur|]; [|reflexivity]. cbn [option_map].
  replace (map (fun q => 1 / 2 * fst q + 1 / 2 * snd q) (combine (map (Rmult c) ul) (map (Rmult c) ur))) with (map (Rmult c) (map (fun q => 1 / 2 * fst q + 1 / 2 * snd q) (combine ul ur))).
  - rewrite inverse_scal by exact P. reflexivity.
  - clear. revert ur. induction ul as [|x ul IH]; intros [|y ur]; try reflexivity. cbn [map combine fst snd]. rewrite IH. f_equal. ring.
Qed.
Lemma rest_swap minph mp taps fw i al ar : ctf_rest minph mp taps fw i al ar = ctf_rest minph mp taps fw i ar al.
Proof.
  unfold ctf_rest. destruct al as [al|], ar as [ar|]; try reflexivity.
  destruct (octave_ok al 1 true ltac:(lra)) as (o & -> & _ & _). destruct (octave_ok ar 1 true ltac:(lra)) as (o' & -> & _ & _). cbn [bind]. rewrite !all_some_map.
  do 3 f_equal. clear. revert o'. induction o as [|x o IH]; intros [|y o']; try reflexivity. cbn [combine map fst snd]. rewrite IH. f_equal. ring.
Qed.
Lemma rfft_scal c x n k : (2 <= n)%nat -> nth k (rfft_n (map (Rmult c) x) n) (0, 0) = (c * fst (nth k (rfft_n x n) (0, 0)), c * snd (nth k (rfft_n x n) (0, 0))).
Proof.
  intros N. destruct (Nat.lt_ge_cases k (n / 2 + 1)) as [K|K].
  - rewrite !nth_rfft_n by assumption. unfold dft. cbn [fst snd]. assert (E : forall j, nth j (map (Rmult c) x) 0 = c * nth j x 0) by (intros j; rewrite <- (Rmult_0_r c) at 1; apply map_nth).
    f_equal; [rewrite <- rsum_scal; apply rsum_ext; intros j _; rewrite E; ring|].
    rewrite (rsum_ext n (fun j => nth j (map (Rmult c) x) 0 * sin (2 * PI * INR (j * k) / INR n)) (fun j => c * (nth j x 0 * sin (2 * PI * INR (j * k) / INR n)))) by (intros j _; rewrite E; ring). rewrite rsum_scal. ring.
  - assert (L : forall y, (length (rfft_n y n) <= k)%nat) by (intros y; unfold rfft_n; rewrite firstn_length; lia). rewrite !nth_overflow by apply L. cbn [fst snd]. f_equal; ring.
Qed.
Lemma avg_gen c (f : list R -> list C2) (g : list R -> list C2) w w' x k : 0 <= c ->
  lsum (map (fun q => fst q * cabs (nth k (snd q) (0, 0)) ^ 2) (combine w' (map g x))) = c ^ 2 * lsum (map (fun q => fst q * cabs (nth k (snd q) (0, 0)) ^ 2) (combine w (map f x))) -> 0 < c ->
  ctf_avg_at w' (map g x) k = option_map (Rmult c) (ctf_avg_at w (map f x) k).
Proof.
  intros C0 E P. unfold ctf_avg_at. rewrite E. generalize (lsum (map (fun q => fst q * cabs (nth k (snd q) (0, 0)) ^ 2) (combine w (map f x)))). intros s.
  assert (P2 : 0 < c ^ 2) by (apply pow_lt; exact P). destruct (Rltb s 0) eqn:S0.
  - apply Rltb_true in S0. destruct (Rltb (c ^ 2 * s) 0) eqn:T; [reflexivity|]. apply Rltb_false in T. nra.
  - apply Rltb_false in S0. destruct (Rltb (c ^ 2 * s) 0) eqn:T; [apply Rltb_true in T; nra|]. cbn [option_map]. f_equal. rewrite sqrt_mult by nra. rewrite <- Rsqr_pow2, sqrt_Rsqr by lra. unfold Rdiv. ring.
Qed.
Lemma avg_map c (f g : list R -> list C2) w w' x bins : (forall k, ctf_avg_at w' (map g x) k = option_map (Rmult c) (ctf_avg_at w (map f x) k)) ->
  ctf_avg w' (map g x) bins = option_map (map (Rmult c)) (ctf_avg w (map f x) bins).
Proof. intros E. unfold ctf_avg. rewrite <- all_some_scal. rewrite map_map. f_equal. apply map_ext. exact E. Qed.
Lemma ctf_scaled pinv cond minph hr mp lims gw c : c <> 0 -> hrirs_ctf pinv cond minph (scaled c hr) mp lims gw = hrirs_ctf pinv cond minph hr mp lims gw.
Proof.
  intros C0. unfold hrirs_ctf, scaled. cbn [h_azi h_zen h_taps num_grid_points h_left h_right h_fs].
  destruct (match gw with Some w => Ok w | None => calculate_grid_weights pinv cond (h_azi hr) (h_zen hr) (Some 5%Z) end) as [w|]; [|reflexivity]. cbn [bind].
  destruct (assert_ (Nat.eqb (length w) (num_grid_points hr))); [|reflexivity]. cbn [bind]. destruct (Nat.eqb_spec (16 * h_taps hr) 0) as [|N0]; [reflexivity|].
  destruct (Z.eqb (h_fs hr) 0); [reflexivity|]. destruct (ctf_weights _ lims) as [fw|]; [|reflexivity]. cbn [bind]. destruct (nearest _ 1000) as [i|]; [|reflexivity]. cbn [bind].
  set (n := (16 * h_taps hr)%nat) in *. assert (A0 : 0 < Rabs c) by (apply Rabs_pos_lt; exact C0).
  assert (K : forall x bins, ctf_avg w (map (fun y => rfft_n y n) (map (map (Rmult c)) x)) bins = option_map (map (Rmult (Rabs c))) (ctf_avg w (map (fun y => rfft_n y n) x) bins)).
  { intros x bins. rewrite map_map. apply avg_map. intros k. apply avg_gen; [lra| |exact A0]. rewrite pow2_abs. clear -N0. revert w. induction x as [|y x IH]; intros [|u w]; cbn [combine map lsum]; try ring.
    rewrite IH. cbn [fst snd]. rewrite rfft_scal by (unfold n in *; lia). 
    assert (Q : forall z, cabs (c * fst z, c * snd z) ^ 2 = c ^ 2 * cabs z ^ 2).
    { intros z. unfold cabs. cbn [fst snd]. rewrite !pow2_sqrt; [ring| |]; pose proof (pow2_ge_0 (fst z)); pose proof (pow2_ge_0 (snd z)); pose proof (pow2_ge_0 (c * fst z)); pose proof (pow2_ge_0 (c * snd z)); lra. }
    rewrite Q. assert (RG : forall X Y, u * (c ^ 2 * X) + c ^ 2 * Y = c ^ 2 * (u * X + Y)) by (intros; ring). apply RG. }
  rewrite !K. exact (rest_scal minph mp (h_taps hr) fw i (Rabs c) _ _ A0).
Qed.
Lemma ctf_weights_scaled pinv cond minph hr mp lims w c : 0 < c -> hrirs_ctf pinv cond minph hr mp lims (Some (map (Rmult c) w)) = hrirs_ctf pinv cond minph hr mp lims (Some w).
Proof.
  intros C0. unfold hrirs_ctf. cbn [bind]. rewrite map_length. destruct (assert_ (Nat.eqb (length w) (num_grid_points hr))); [|reflexivity]. cbn [bind].
  destruct (Nat.eqb_spec (16 * h_taps hr) 0) as [|N0]; [reflexivity|].
  destruct (Z.eqb (h_fs hr) 0); [reflexivity|]. destruct (ctf_weights _ lims) as [fw|]; [|reflexivity]. cbn [bind]. destruct (nearest _ 1000) as [i|]; [|reflexivity]. cbn [bind].
  pose proof (sqrt_lt_R0 c C0) as A0.
  assert (K : forall x bins, ctf_avg (map (Rmult c) w) (map (fun y => rfft_n y (16 * h_taps hr)) x) bins = option_map (map (Rmult (sqrt c))) (ctf_avg w (map (fun y => rfft_n y (16 * h_taps hr)) x) bins)).
  { intros x bins. apply avg_map. intros k. apply avg_gen; [lra| |exact A0]. rewrite pow2_sqrt by lra. generalize (map (fun y => rfft_n y (16 * h_taps hr)) x). clear. intros l. revert l. induction w as [|u w IH]; intros [|y l]; cbn [combine map lsum]; try ring.
    rewrite IH. cbn [fst snd]. ring. }
  rewrite !K. exact (rest_scal minph mp (h_taps hr) fw i (sqrt c) _ _ A0).
Qed.
Lemma ctf_ears pinv cond minph l r azi zen fs g t mp lims gw : hrirs_ctf pinv cond minph (Hrirs l r azi zen fs g t) mp lims gw = hrirs_ctf pinv cond minph (Hrirs r l azi zen fs g t) mp lims gw.
Proof.
  unfold hrirs_ctf. cbn [h_azi h_zen h_taps num_grid_points h_left h_right h_fs].
  destruct (match gw with Some w => Ok w | None => calculate_grid_weights pinv cond azi zen (Some 5%Z) end) as [w|]; [|reflexivity]. cbn [bind].
  destruct (assert_ (Nat.eqb (length w) g)); [|reflexivity]. cbn [bind]. destruct (Nat.eqb (16 * t) 0); [reflexivity|].
  destruct (Z.eqb fs 0); [reflexivity|]. destruct (ctf_weights _ lims) as [fw|]; [|reflexivity]. cbn [bind]. destruct (nearest _ 1000) as [i|]; [|reflexivity]. cbn [bind].
  apply (rest_swap minph mp t fw i).
Qed.
