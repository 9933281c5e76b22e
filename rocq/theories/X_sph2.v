(** Final forms and examples: scattering on a sphere. *)
From Verif Require Import Base BaseFacts M_utils M_sig M_process M_sph M_sph2 S_sph2 P_sph1 P_parsa3 P_proc2 P_dec10 X_io4 P_sph14 P_sph15 P_sph16.
Open Scope R_scope.

Lemma f_bessel (n : nat) :
  solves_bessel n (fun z => spherical_jn n z false) (fun z => spherical_jn n z true) /\
  solves_bessel n (fun z => num (spherical_yn n z false)) (fun z => num (spherical_yn n z true)) /\
  (forall z, z <> 0 -> spherical_jn n z false * num (spherical_yn n z true) - spherical_jn n z true * num (spherical_yn n z false) = 1 / z ^ 2) /\
  (forall z, 0 <= z -> Rabs (spherical_jn n z false) <= z ^ n / odds n) /\
  (forall z, z <> 0 -> spherical_jn 0 z false = sin z / z /\ spherical_yn 0 z false = Some (- cos z / z)).
Proof.
  split; [apply jn_solves|]. split; [apply yn_solves|]. split; [intros z Hz; apply jy_wronski; exact Hz|]. split.
  - intros z Hz. destruct (Req_dec z 0) as [->|NZ].
    + unfold spherical_jn. unfold Reqb. destruct (Req_EM_T 0 0); [|contradiction]. destruct n as [|n]; cbn [Nat.eqb odds pow].
      * rewrite Rabs_R1. lra.
      * rewrite Rabs_R0. unfold Rdiv. rewrite !Rmult_0_l. apply Rle_refl.
    + rewrite jn_ok by exact NZ. apply j_bound. lra.
  - intros z Hz. rewrite jn_ok, yn_ok by exact Hz. split; reflexivity.
Qed.
Lemma f_hankel n z d : z <> 0 -> spherical_hn2 n z d = Some (spherical_jn n z d, - num (spherical_yn n z d)).
Proof. intros Hz. unfold spherical_hn2. rewrite yn_ok by exact Hz. reflexivity. Qed.
Lemma f_rigid n kr b : kr <> 0 ->
  (mode_strength n kr Rigid = Ok (Some b) <-> rigid_scatter n (fun z => spherical_jn n z false) (fun z => num (spherical_yn n z false)) kr b).
Proof. apply rigid_iff. Qed.
Lemma f_rigid_size n kr : kr <> 0 ->
  exists b, mode_strength n kr Rigid = Ok (Some b) /\ fst b ^ 2 + snd b ^ 2 = (4 * PI) ^ 2 * sphere_power kr n /\ 0 < sphere_power kr n.
Proof.
  intros Hk. exists (rigid_amp n kr). split; [apply rigid_value; exact Hk|]. rewrite <- cabs2_eq, rigid_size by exact Hk. split; [reflexivity|]. apply power_pos. exact Hk.
Qed.
Lemma f_rigid_zero n : mode_strength n 0 Rigid = Ok None.
Proof. apply rigid_zero. Qed.
Lemma f_open n kr :
  exists b, mode_strength n kr Open = Ok (Some b) /\
    b = (4 * PI * cos (INR n * (PI / 2)) * spherical_jn n kr false, 4 * PI * sin (INR n * (PI / 2)) * spherical_jn n kr false).
Proof.
  eexists. split; [reflexivity|]. rewrite ipow_trig. unfold cmul, cscal. cbn [fst snd]. f_equal; ring.
Qed.
Lemma f_other n kr : mode_strength n kr OtherSphere = Err ValueError.
Proof. reflexivity. Qed.
Lemma f_order0 kr : kr <> 0 -> sphere_power kr 0 = 1 / (1 + kr ^ 2).
Proof. intros Hk. apply power_0. exact Hk. Qed.
Lemma f_mode_ex :
  exists b, mode_strength 0 1 Rigid = Ok (Some b) /\ fst b ^ 2 + snd b ^ 2 = 8 * PI ^ 2 /\
    rigid_scatter 0 (fun z => spherical_jn 0 z false) (fun z => num (spherical_yn 0 z false)) 1 b.
Proof.
  destruct (f_rigid_size 0 1 ltac:(lra)) as (b & E & Q & _). exists b. split; [exact E|]. split; [|apply rigid_iff; [lra|exact E]].
  rewrite Q, f_order0 by lra. field.
Qed.

Lemma f_pressure N kr w : enough N w ->
  pressure_on_sphere (Z.of_nat N) kr w = Ok (map (fun k => diffuse_pressure N (weight w) (sphere_power k) k) kr).
Proof. apply pressure_ok. Qed.
Lemma full_zceil f r_0 m : full_order f r_0 m -> zceil (last (krs f r_0) 0) = Z.of_nat m.
Proof.
  intros [A B]. apply Z.le_antisymm.
  - apply zceil_le_iff. rewrite <- INR_IZR_INZ. exact B.
  - assert (Z.of_nat m - 1 < zceil (last (krs f r_0) 0%R))%Z; [|lia]. apply zceil_lt_iff. rewrite minus_IZR, <- INR_IZR_INZ. exact A.
Qed.
Lemma f_gain N f r_0 w m : enough N w -> f <> [] -> full_order f r_0 m ->
  exists g, binaural_coloration_compensation N f r_0 w = Ok g /\ length g = length f /\
    forall i x, nth_error f i = Some x -> forall k, k = 2 * PI * x / 343 * r_0 ->
      (k = 0 -> nth_error g i = Some (Num 1)) /\
      (k <> 0 -> 0 < order_sum N (weight w) (sphere_power k) ->
        nth_error g i = Some (Num (sqrt (order_sum m (fun _ => 1) (sphere_power k) / order_sum N (weight w) (sphere_power k))))) /\
      (k <> 0 -> (forall n, (n <= N)%nat -> weight w n = 0) -> nth_error g i = Some Infinite).
Proof.
  intros E NE HM. eexists. split; [apply (compensation_ok N f r_0 w m E NE (full_zceil _ _ _ HM))|]. split; [unfold krs; rewrite !map_length; reflexivity|].
  intros i x Hx k Hk.
  assert (G : nth_error (map (fun k => safe_ratio (diffuse_pressure m (fun _ => 1) (sphere_power k) k) (diffuse_pressure N (weight w) (sphere_power k) k)) (krs f r_0)) i
    = Some (safe_ratio (diffuse_pressure m (fun _ => 1) (sphere_power k) k) (diffuse_pressure N (weight w) (sphere_power k) k))).
  { unfold krs. rewrite map_map. rewrite (map_nth_error _ i f Hx). rewrite <- Hk. reflexivity. }
  split; [|split].
  - intros K0. etransitivity; [exact G|]. rewrite K0. f_equal. apply ratio_zero.
  - intros K0 S0. etransitivity; [exact G|]. f_equal. apply ratio_value; [exact K0|intros n; apply power_pos; exact K0|exact S0].
  - intros K0 S0. etransitivity; [exact G|]. f_equal. apply ratio_inf; [exact K0|intros n; apply power_pos; exact K0|exact S0].
Qed.
Lemma f_boost N f r_0 w m g i : enough N w -> f <> [] -> full_order f r_0 m -> (N <= m)%nat ->
  (forall n, (n <= N)%nat -> 0 <= weight w n <= 1) -> (exists n, (n <= N)%nat /\ 0 < weight w n) ->
  binaural_coloration_compensation N f r_0 w = Ok g -> (i < length f)%nat -> is_num (nth_error g i) (fun x => 1 <= x).
Proof.
  intros E NE HM L HW (n1 & Hn1 & W1) HG Hi. destruct (f_gain N f r_0 w m E NE HM) as (g' & HG' & LG & A). rewrite HG in HG'. injection HG' as <-.
  destruct (nth_error f i) as [x|] eqn:Hx; [|apply nth_error_None in Hx; lia]. destruct (A i x Hx _ eq_refl) as (A0 & A1 & _). set (k := 2 * PI * x / 343 * r_0) in *.
  destruct (Req_dec k 0) as [K|K]; [rewrite (A0 K); cbn [is_num]; lra|].
  assert (P : forall n, 0 < sphere_power k n) by (intros n; apply power_pos; exact K).
  assert (S0 : 0 < order_sum N (weight w) (sphere_power k)) by (apply order_sum_pos with n1; [intros n Hn; apply HW; exact Hn|exact P|exact Hn1|exact W1]).
  rewrite (A1 K S0). cbn [is_num]. apply Rle_trans with (sqrt 1); [rewrite sqrt_1; lra|]. apply sqrt_le_1_alt. apply Rmult_le_reg_r with (order_sum N (weight w) (sphere_power k)); [exact S0|].
  unfold Rdiv. rewrite Rmult_assoc, Rinv_l, Rmult_1_l, Rmult_1_r by lra. apply order_sum_le; [exact L|exact P|intros n Hn; apply HW; exact Hn|intros; lra].
Qed.
Lemma f_unity f r_0 m g i : f <> [] -> full_order f r_0 m ->
  binaural_coloration_compensation m f r_0 None = Ok g -> (i < length f)%nat -> nth_error g i = Some (Num 1).
Proof.
  intros NE HM HG Hi. destruct (f_gain m f r_0 None m I NE HM) as (g' & HG' & LG & A). rewrite HG in HG'. injection HG' as <-.
  destruct (nth_error f i) as [x|] eqn:Hx; [|apply nth_error_None in Hx; lia]. destruct (A i x Hx _ eq_refl) as (A0 & A1 & _). set (k := 2 * PI * x / 343 * r_0) in *.
  destruct (Req_dec k 0) as [K|K]; [exact (A0 K)|].
  assert (S0 : 0 < order_sum m (weight None) (sphere_power k)) by (apply order_sum_pos with 0%nat; [intros; cbn [weight]; lra|intros n; apply power_pos; exact K|lia|cbn [weight]; lra]).
  rewrite (A1 K S0). f_equal. f_equal. change (fun _ : nat => 1) with (weight None). unfold Rdiv. rewrite Rinv_r by lra. apply sqrt_1.
Qed.
Lemma f_cut N f r_0 m g i x : f <> [] -> full_order f r_0 m -> (m < N)%nat ->
  binaural_coloration_compensation N f r_0 None = Ok g -> nth_error f i = Some x -> x <> 0 -> r_0 <> 0 -> is_num (nth_error g i) (fun y => 0 < y < 1).
Proof.
  intros NE HM L HG Hx X0 R0. destruct (f_gain N f r_0 None m I NE HM) as (g' & HG' & LG & A). rewrite HG in HG'. injection HG' as <-.
  destruct (A i x Hx _ eq_refl) as (A0 & A1 & _). set (k := 2 * PI * x / 343 * r_0) in *.
  assert (K : k <> 0). { unfold k. pose proof PI_RGT_0. intros E. apply Rmult_integral in E. destruct E as [E|E]; [|contradiction]. apply X0. assert (0 = 2 * PI * x) by lra. apply (Rmult_eq_reg_l (2 * PI)); lra. }
  assert (P : forall n, 0 < sphere_power k n) by (intros n; apply power_pos; exact K).
  assert (S0 : 0 < order_sum N (weight None) (sphere_power k)) by (apply order_sum_pos with 0%nat; [intros; cbn [weight]; lra|exact P|lia|cbn [weight]; lra]).
  assert (S1 : 0 < order_sum m (weight None) (sphere_power k)) by (apply order_sum_pos with 0%nat; [intros; cbn [weight]; lra|exact P|lia|cbn [weight]; lra]).
  rewrite (A1 K S0). cbn [is_num]. change (fun _ : nat => 1) with (weight None). split.
  - apply sqrt_lt_R0. apply Rdiv_lt_0_compat; assumption.
  - apply Rlt_le_trans with (sqrt 1); [|rewrite sqrt_1; lra]. apply sqrt_lt_1_alt. split; [apply Rlt_le, Rdiv_lt_0_compat; assumption|].
    apply Rmult_lt_reg_r with (order_sum N (weight None) (sphere_power k)); [exact S0|].
    unfold Rdiv. rewrite Rmult_assoc, Rinv_l, Rmult_1_l, Rmult_1_r by lra. apply (order_sum_lt m N); [exact L|exact P].
Qed.
Lemma f_short N f r_0 w : f <> [] -> (exists m, full_order f r_0 m) -> (length w <= N)%nat -> binaural_coloration_compensation N f r_0 (Some w) = Err IndexError.
Proof.
  intros NE (m & HM) L. unfold binaural_coloration_compensation. fold (krs f r_0). rewrite index_last by (unfold krs; destruct f; [contradiction|discriminate]).
  cbn [bind]. rewrite (full_zceil _ _ _ HM). rewrite (pressure_ok m _ None) by exact I. cbn [bind]. rewrite pressure_short by exact L. reflexivity.
Qed.
Lemma f_empty N r_0 w : binaural_coloration_compensation N [] r_0 w = Err IndexError.
Proof. reflexivity. Qed.
Lemma last_two (a b : R) r : last (krs [a; b] r) 0 = 2 * PI * b / 343 * r.
Proof. reflexivity. Qed.
(** 5 kHz and then 0 Hz: the last kr is 0, so that only order 0 is kept *)
Lemma f_unsorted_refuted : exists f g i x, nth_error f i = Some x /\ INR 1 < 2 * PI * x / 343 * (875 / 10000) /\
  binaural_coloration_compensation 1 f (875 / 10000) None = Ok g /\ is_num (nth_error g i) (fun y => 0 < y < 1).
Proof.
  exists [5000; 0].
  assert (HM : full_order [5000; 0] (875 / 10000) 0).
  { unfold full_order. rewrite last_two. simpl INR. lra. }
  destruct (f_gain 1 [5000; 0] (875 / 10000) None 0 I ltac:(discriminate) HM) as (g & HG & _).
  exists g, 0%nat, 5000. split; [reflexivity|]. split; [simpl INR; pose proof PI_RGT_0; pose proof PI2_3_2; unfold PI2 in *; lra|]. split; [exact HG|].
  apply (f_cut 1 [5000; 0] (875 / 10000) 0 g 0 5000); [discriminate|exact HM|lia|exact HG|reflexivity|lra|lra].
Qed.
(** 0 Hz and the frequency with kr = 1, order 0 *)
Lemma f_gain_ex : exists g, binaural_coloration_compensation 0 [0; 343 / (2 * PI)] 1 None = Ok g /\ nth_error g 0 = Some (Num 1) /\
  is_num (nth_error g 1) (fun y => 1 <= y).
Proof.
  pose proof PI_RGT_0 as HP. assert (K : 2 * PI * (343 / (2 * PI)) / 343 * 1 = 1) by (field; lra).
  assert (HM : full_order [0; 343 / (2 * PI)] 1 1) by (unfold full_order; rewrite last_two, K; simpl INR; lra).
  destruct (f_gain 0 [0; 343 / (2 * PI)] 1 None 1 I ltac:(discriminate) HM) as (g & HG & _ & A). exists g. split; [exact HG|]. split.
  - apply (A 0%nat 0 eq_refl _ eq_refl). field.
  - apply (f_boost 0 [0; 343 / (2 * PI)] 1 None 1 g 1); [exact I|discriminate|exact HM|lia|intros; cbn [weight]; lra|exists 0%nat; cbn [weight]; split; [lia|lra]|exact HG|cbn [length]; lia].
Qed.
