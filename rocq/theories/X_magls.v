(** magls_bin: examples. *)
From Verif Require Import Base BaseFacts M_utils M_sig M_process M_sph M_parsa2 M_parsa3 M_decoder4 S_grids S_lsq S_magls P_utils P_sig P_sph7 P_lsq P_grids3 P_magls1 P_magls2 P_magls3 P_magls4 P_magls5 X_sph.
Open Scope R_scope.

Definition pulse (n d : nat) (w : R) : list R := map (fun t => if Nat.eqb t d then w else 0) (seq 0 n).
Lemma nth_pulse n d w t : (d < n)%nat -> nth t (pulse n d w) 0 = if Nat.eqb t d then w else 0.
Proof.
  intros Hd. unfold pulse. destruct (Nat.lt_ge_cases t n) as [H|H]; [rewrite nth_map_seq' by exact H; reflexivity|].
  rewrite nth_overflow by (rewrite map_length, seq_length; exact H). rewrite (proj2 (Nat.eqb_neq t d)) by lia. reflexivity.
Qed.
Definition tr_pinv (s : R) (Y : mat) : mat := Mat (nc Y) (nr Y) (fun i j => s * ent Y j i).
Definition octa_hrirs (taps : nat) (fs : Z) : hrirs := Hrirs (repeat (pulse taps 8 1) 6) (repeat (pulse taps 20 (1 / 2)) 6) octa_azi octa_zen fs 6 taps.
Lemma near k c n fs f : (k <= n / 2)%nat -> 0 < c -> fs / INR n = c -> Rabs (INR k * c - f) < c / 2 -> nearest_bin n fs f k.
Proof.
  intros K C E A. assert (V : forall j, INR j * fs / INR n = INR j * c) by (intros j; rewrite <- E; unfold Rdiv; ring).
  assert (G : forall j, j <> k -> Rabs (INR k * c - f) < Rabs (INR j * c - f)).
  { intros j NE. apply Rabs_def2 in A. destruct (Nat.lt_ge_cases j k) as [L|L].
    - assert (INR j + 1 <= INR k) by (rewrite <- S_INR; apply le_INR; lia). assert (INR j * c + c <= INR k * c) by nra.
      rewrite (Rabs_left (INR j * c - f)) by lra. apply Rabs_def1; lra.
    - assert (INR k + 1 <= INR j) by (rewrite <- S_INR; apply le_INR; lia). assert (INR k * c + c <= INR j * c) by nra.
      rewrite (Rabs_pos_eq (INR j * c - f)) by lra. apply Rabs_def1; lra. }
  split; [exact K|]. split; intros j Hj; rewrite !V.
  - destruct (Nat.eq_dec j k) as [->|NE]; [lra|]. apply Rlt_le. apply G. exact NE.
  - apply G. lia.
Qed.
Lemma inr1024 : INR 1024 = 1024.
Proof. rewrite INR_IZR_INZ. reflexivity. Qed.
Lemma half1024 : (1024 / 2 = 512)%nat.
Proof. reflexivity. Qed.
Lemma bin13 : nearest_bin 1024 (IZR 48000) (cuton None 1) 13.
Proof.
  apply (near 13 (375 / 8)); [rewrite half1024; lia|lra|rewrite inr1024; lra|]. unfold cuton. simpl (INR 1). replace (INR 13) with 13 by (simpl; ring). apply Rabs_def1; lra.
Qed.
Lemma bin3 : nearest_bin 1024 (IZR 192000) (cuton None 1) 3.
Proof.
  apply (near 3 (375 / 2)); [rewrite half1024; lia|lra|rewrite inr1024; lra|]. unfold cuton. simpl (INR 1). replace (INR 3) with 3 by (simpl; ring). apply Rabs_def1; lra.
Qed.
Lemma octa_setup taps n fs kc : (0 < fs)%Z -> n = Nat.max 1024 taps -> nearest_bin n (IZR fs) (cuton None 1) kc -> exists Y, left_invertible Y /\ nr Y = 6%nat /\ nc Y = 4%nat /\
  (forall g, (g < 6)%nat -> ent Y g 0 = sh_real 0 0 (nth g octa_azi 0) (nth g octa_zen 0)) /\ magls_setup (tr_pinv (4 * PI / 6)) (octa_hrirs taps fs) 1 None Y n kc.
Proof.
  intros F EN NB. destruct octa_penrose as (Y & E & LI & HP). exists Y. destruct (sh_matrix_ok 1 octa_azi octa_zen eq_refl) as (Y' & E' & R' & C' & V). rewrite E in E'. injection E' as <-.
  split; [exact LI|]. split; [exact R'|]. split; [exact C'|]. split; [intros g Hg; exact (V g 0%nat 0%nat Hg ltac:(lia) ltac:(lia))|].
  unfold magls_setup, octa_hrirs. cbn [h_fs h_zen h_azi h_left h_right h_taps]. split; [lia|]. do 3 (split; [reflexivity|]). split; [exact E|]. split; [exact HP|]. split; [exact EN|exact NB].
Qed.

Lemma octa_fit Y w : left_invertible Y -> penrose Y (tr_pinv (4 * PI / 6) Y) -> nr Y = 6%nat -> nc Y = 4%nat ->
  (forall g, (g < 6)%nat -> ent Y g 0 = sh_real 0 0 (nth g octa_azi 0) (nth g octa_zen 0)) ->
  best_fit Y (fun _ => w) (fun j => if Nat.eqb j 0 then w * sqrt (4 * PI) else 0) /\
  forall g, (g < nr Y)%nat -> rsum (nc Y) (fun j => ent Y g j * (if Nat.eqb j 0 then w * sqrt (4 * PI) else 0)) = w.
Proof.
  intros LI HP RY CY V.
  assert (EX : forall g, (g < nr Y)%nat -> rsum (nc Y) (fun j => ent Y g j * (if Nat.eqb j 0 then w * sqrt (4 * PI) else 0)) = w).
  { intros g Hg. rewrite (rsum_single (nc Y) 0); [|lia|].
    - cbn [Nat.eqb]. rewrite V by lia. transitivity (w * (sqrt (4 * PI) * sh_real 0 0 (nth g octa_azi 0) (nth g octa_zen 0))); [ring|]. rewrite y00. ring.
    - intros j _ NE. rewrite (proj2 (Nat.eqb_neq j 0)) by auto. ring. }
  split; [|exact EX]. eapply best_fit_ext; [| |exact (pinv_fit Y _ (fun _ => w) HP)]; [reflexivity|].
  apply (pinv_exact Y (tr_pinv (4 * PI / 6) Y) (fun _ => w) HP); [exact LI|]. intros g Hg. symmetry. apply EX. exact Hg.
Qed.
Lemma taper_one d : (4 <= d < 96)%nat -> edge_taper 128 d = 1.
Proof. intros Hd. unfold edge_taper. destruct (Nat.ltb_spec d 4); [lia|]. destruct (Nat.leb_spec (128 - 32) d); [lia|]. ring. Qed.
Lemma octa_pulses taps d w : (d < taps)%nat -> pulses (repeat (pulse taps d w) 6) 6 d (fun _ => w).
Proof.
  intros Hd g t Hg. rewrite (nth_indep _ [] (pulse taps d w)) by (rewrite repeat_length; exact Hg). rewrite nth_repeat. apply nth_pulse. exact Hd.
Qed.
(** pulses from all directions of the octahedron *)
Lemma ex_pulses : exists Y, magls_setup (tr_pinv (4 * PI / 6)) (octa_hrirs 128 48000) 1 None Y 1024 13 /\
  exists l r, magls_bin (tr_pinv (4 * PI / 6)) (octa_hrirs 128 48000) 1 None Avg (0, 0) = Ok (l, r) /\
    forall j t, (j < 4)%nat -> (t < 128)%nat ->
      nth t (nth j l []) 0 = (if Nat.eqb t 8 && Nat.eqb j 0 then sqrt (4 * PI) else 0) /\
      nth t (nth j r []) 0 = (if Nat.eqb t 20 && Nat.eqb j 0 then sqrt (4 * PI) / 2 else 0).
Proof.
  destruct (octa_setup 128 1024 48000 13 ltac:(lia) eq_refl bin13) as (Y & LI & RY & CY & V & SU). exists Y. split; [exact SU|].
  assert (HP : penrose Y (tr_pinv (4 * PI / 6) Y)) by apply SU.
  destruct (octa_fit Y 1 LI HP RY CY V) as (B1 & E1). destruct (octa_fit Y (1 / 2) LI HP RY CY V) as (B2 & E2).
  assert (SP : 0 < sqrt (4 * PI)) by (apply sqrt_lt_R0; pose proof PI_RGT_0; lra).
  destruct (magls_pulses _ _ _ _ Y 1024 13 Avg (0, 0) 8 (fun _ => 1) (fun j => if Nat.eqb j 0 then 1 * sqrt (4 * PI) else 0) 20 (fun _ => 1 / 2) (fun j => if Nat.eqb j 0 then 1 / 2 * sqrt (4 * PI) else 0) SU) as (l & r & E & (_ & PL) & (_ & PR)).
  - cbn [cont_ok]. lia.
  - cbn [octa_hrirs h_taps]. lia.
  - reflexivity.
  - left. auto.
  - lia.
  - lia.
  - rewrite RY. cbn [octa_hrirs h_left]. apply octa_pulses. lia.
  - rewrite RY. cbn [octa_hrirs h_right]. apply octa_pulses. lia.
  - intros g _. split; lra.
  - exact B1.
  - exact B2.
  - cbn [Nat.eqb]. lra.
  - cbn [Nat.eqb]. lra.
  - intros g Hg. rewrite E1, E2 by exact Hg. split; lra.
  - exists l, r. split; [exact E|]. rewrite CY in *. cbn [octa_hrirs h_taps] in *. intros j t Hj Ht. destruct (PL j Hj) as (_ & L). destruct (PR j Hj) as (_ & R'). rewrite (L t Ht), (R' t Ht). split.
    + destruct (Nat.eqb_spec t 8) as [->|]; cbn [andb]; [|reflexivity]. rewrite taper_one by lia. destruct (Nat.eqb j 0); ring.
    + destruct (Nat.eqb_spec t 20) as [->|]; cbn [andb]; [|reflexivity]. rewrite taper_one by lia. destruct (Nat.eqb j 0); field.
Qed.
(** with the default frequency 600 Hz, first order fails at 192 kHz *)
Lemma ex_192k : exists Y, magls_setup (tr_pinv (4 * PI / 6)) (octa_hrirs 128 192000) 1 None Y 1024 3 /\
  magls_bin (tr_pinv (4 * PI / 6)) (octa_hrirs 128 192000) 1 None Avg (0, 0) = Err AssertionError.
Proof.
  destruct (octa_setup 128 1024 192000 3 ltac:(lia) eq_refl bin3) as (Y & LI & RY & CY & V & SU). exists Y. split; [exact SU|].
  apply (magls_too_few _ _ _ _ Y 1024 3); [exact SU|lia|left; reflexivity].
Qed.
(** 1025 taps in, 1024 out *)
Lemma bin13' n : n = 1025%nat -> nearest_bin n (IZR 48000) (cuton None 1) 13.
Proof.
  intros E. assert (IN : INR n = 1025) by (rewrite E, INR_IZR_INZ; reflexivity). assert (H2 : (13 <= n / 2)%nat) by (apply Nat.div_le_lower_bound; lia).
  apply (near 13 (48000 / 1025)); [exact H2|lra|rewrite IN; lra|]. unfold cuton. simpl (INR 1). replace (INR 13) with 13 by (simpl; ring). apply Rabs_def1; lra.
Qed.
Lemma ex_1025 : exists hr l r, h_taps hr = 1025%nat /\ Forall (fun x => length x = 1025%nat) (h_left hr) /\
  magls_bin (tr_pinv (4 * PI / 6)) hr 1 None Avg (0, 0) = Ok (l, r) /\ length (nth 0 l []) = 1024%nat.
Proof.
  assert (G : forall n, n = 1025%nat -> exists hr l r, h_taps hr = n /\ Forall (fun x => length x = n) (h_left hr) /\
    magls_bin (tr_pinv (4 * PI / 6)) hr 1 None Avg (0, 0) = Ok (l, r) /\ length (nth 0 l []) = (n - 1)%nat); [|exact (G 1025%nat eq_refl)].
  intros n EN. destruct (octa_setup n n 48000 13 ltac:(lia) ltac:(lia) (bin13' n EN)) as (Y & LI & RY & CY & V & SU).
  destruct (magls_odd _ _ _ _ Y n 13 Avg (0, 0) SU) as (l & r & E & L).
  - cbn [cont_ok]. lia.
  - cbn [octa_hrirs h_taps]. lia.
  - cbn [octa_hrirs h_taps]. rewrite EN. reflexivity.
  - exists (octa_hrirs n 48000), l, r. split; [reflexivity|]. split; [|split; [exact E|]].
    + cbn [octa_hrirs h_left]. apply Forall_forall. intros x Hx. apply repeat_spec in Hx. subst x. unfold pulse. rewrite map_length, seq_length. reflexivity.
    + apply (L 0%nat). cbn. lia.
Qed.
(** a single direction *)
Definition one_hrirs : hrirs := Hrirs [pulse 128 8 1] [pulse 128 20 (1 / 2)] [0] [PI / 2] 48000 1 128.
Definition row_pinv (Y : mat) : mat := Mat (nc Y) (nr Y) (fun i j => ent Y j i / rsum (nc Y) (fun k => ent Y 0 k ^ 2)).
Lemma row_penrose Y : nr Y = 1%nat -> 0 < rsum (nc Y) (fun k => ent Y 0 k ^ 2) -> penrose Y (row_pinv Y) /\ right_invertible Y.
Proof.
  intros R1 S0. set (s := rsum (nc Y) (fun k => ent Y 0 k ^ 2)) in *.
  assert (YP : mprod (nc Y) Y (row_pinv Y) 0 0 = 1).
  { unfold mprod, row_pinv. cbn [ent]. fold s. rewrite (rsum_ext _ _ (fun k => / s * ent Y 0 k ^ 2)) by (intros; unfold Rdiv; ring). rewrite rsum_scal. fold s. field. lra. }
  assert (PY : forall i j, mprod 1 (row_pinv Y) Y i j = ent Y 0 i * ent Y 0 j / s) by (intros; unfold mprod, row_pinv; cbn [ent rsum]; fold s; field; lra).
  split.
  - unfold penrose. rewrite R1. split; [reflexivity|]. split; [cbn; exact R1|]. split; [|split; [|split]].
    + intros i j Hi Hj. assert (i = 0%nat) by lia. subst i. cbn [rsum]. rewrite YP. ring.
    + intros i j Hi Hj. assert (j = 0%nat) by lia. subst j. rewrite (rsum_ext _ _ (fun k => ent Y 0 i / s / s * ent Y 0 k ^ 2)).
      * rewrite rsum_scal. fold s. unfold row_pinv. cbn [ent]. fold s. field. lra.
      * intros k Hk. rewrite PY. unfold row_pinv. cbn [ent]. fold s. field. lra.
    + intros i j Hi Hj. assert (i = 0%nat) by lia. assert (j = 0%nat) by lia. subst. reflexivity.
    + intros i j Hi Hj. rewrite !PY. field. lra.
  - exists (row_pinv Y). rewrite R1. intros i j Hi Hj. assert (i = 0%nat) by lia. assert (j = 0%nat) by lia. subst. rewrite YP. reflexivity.
Qed.
Lemma ex_magnitude : exists Y, magls_setup row_pinv one_hrirs 1 None Y 1024 13 /\ right_invertible Y /\ cont_ok Angle 13 /\ (32 <= h_taps one_hrirs)%nat.
Proof.
  destruct (sh_matrix_ok 1 [0] [PI / 2] eq_refl) as (Y & E & R' & C' & V). exists Y. cbn [length] in R'.
  assert (S0 : 0 < rsum (nc Y) (fun k => ent Y 0 k ^ 2)).
  { rewrite C'. change ((1 + 1) ^ 2)%nat with 4%nat. rewrite rsum_shift. apply Rplus_lt_le_0_compat.
    - pose proof (V 0%nat 0%nat 0%nat ltac:(cbn; lia) ltac:(lia) ltac:(lia)) as V0. change (0 * 0 + 0)%nat with 0%nat in V0. rewrite V0. pose proof (y00 0 (PI / 2)) as Q. cbn [nth Z.of_nat Z.sub Z.add Z.opp].
      set (y := sh_real 0 0 0 (PI / 2)) in *. assert (y <> 0) by (intros Z; rewrite Z in Q; lra). nra.
    - apply rsum_nonneg. intros. apply pow2_ge_0. }
  destruct (row_penrose Y R' S0) as (HP & RI). split; [|split; [exact RI|split; [cbn; lia|cbn; lia]]].
  unfold magls_setup, one_hrirs. cbn [h_fs h_zen h_azi h_left h_right h_taps]. split; [lia|]. do 3 (split; [reflexivity|]). split; [exact E|]. split; [exact HP|]. split; [reflexivity|exact bin13].
Qed.
