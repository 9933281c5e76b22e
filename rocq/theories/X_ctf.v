(** Final forms and examples: hrirs_ctf, apply_ctf_eq, resample_spectrum. *)
From Verif Require Import Base BaseFacts M_utils M_sig M_process M_sph M_grids M_parsa2 M_parsa3 M_decoder4 M_process2 S_process S_decoder3 S_magls S_ctf P_utils P_sig P_dec13 P_magls1 P_magls2 P_magls3 P_magls4 P_magls5 X_magls X_process P_ctf1 P_ctf2 P_ctf3 P_ctf4 P_ctf5 P_ctf6.
Open Scope R_scope.

Lemma f_correction lo hi bins i s : (hi < bins)%nat -> (5 <= i < bins)%nat -> (forall k, (k < bins)%nat -> 0 < s k) ->
  (forall k, (lo <= k < hi)%nat -> correction lo hi bins i s k * s k = reference_level bins i s) /\
  ((0 < lo)%nat -> (0 < hi)%nat -> correction lo hi bins i s 0 = 1) /\ correction lo hi bins i s (bins - 1) = 1 /\
  (forall k, (k < bins)%nat -> 0 < correction lo hi bins i s k /\
     Rmin 1 (reference_level bins i s / s k) <= correction lo hi bins i s k <= Rmax 1 (reference_level bins i s / s k)).
Proof.
  intros Hh Hi P. pose proof (reference_pos bins i s Hi P) as RP. destruct (correction_ends lo hi bins i s Hh) as [A B]. split; [|split; [exact A|split; [exact B|]]].
  - intros k Hk. apply correction_band; [exact Hk|]. pose proof (P k ltac:(lia)). lra.
  - intros k Hk. pose proof (correction_between lo hi bins i s k (P k Hk) RP) as C. split; [|exact C]. destruct C as [C _]. eapply Rlt_le_trans; [|exact C]. apply Rmin_pos; [lra|]. apply Rdiv_lt_0_compat; auto.
Qed.
(** ** apply_ctf_eq *)
Lemma f_full pinv cond minph hr e : rectangular hr -> (0 < length e)%nat ->
  exists hr', apply_ctf_eq pinv cond minph hr (Some e) Full = Ok (Some hr') /\ equalised hr hr' e 0 (h_taps hr + length e - 1).
Proof. intros R0 E. apply apply_ok; [exact R0|exact E|reflexivity]. Qed.
Lemma f_same pinv cond minph hr e : rectangular hr -> (0 < length e)%nat ->
  exists hr', apply_ctf_eq pinv cond minph hr (Some e) Same = Ok (Some hr') /\ equalised hr hr' e ((length e - 1) / 2) (h_taps hr).
Proof. intros R0 E. apply apply_ok; [exact R0|exact E|reflexivity]. Qed.
Lemma f_valid pinv cond minph hr e : rectangular hr -> (0 < length e)%nat ->
  ((length e <= h_taps hr)%nat -> exists hr', apply_ctf_eq pinv cond minph hr (Some e) Valid = Ok (Some hr') /\ equalised hr hr' e (length e - 1) (h_taps hr - length e + 1)) /\
  ((h_taps hr < length e)%nat -> length (h_left hr) = 1%nat -> exists hr', apply_ctf_eq pinv cond minph hr (Some e) Valid = Ok (Some hr') /\ equalised hr hr' e (h_taps hr - 1) (length e - h_taps hr + 1)) /\
  ((h_taps hr < length e)%nat -> (1 < length (h_left hr))%nat -> apply_ctf_eq pinv cond minph hr (Some e) Valid = Err ValueError).
Proof.
  intros R0 E. split; [|split].
  - intros L. apply apply_ok; [exact R0|exact E|]. unfold eq_window. rewrite (proj2 (Nat.leb_le _ _) L). reflexivity.
  - intros L G. apply apply_ok; [exact R0|exact E|]. unfold eq_window. rewrite (proj2 (Nat.leb_gt _ _) L), G. reflexivity.
  - intros L G. apply apply_invalid; [exact R0|exact E|]. unfold eq_window. rewrite (proj2 (Nat.leb_gt _ _) L), (proj2 (Nat.leb_gt _ _) G). reflexivity.
Qed.
Lemma f_rejected pinv cond minph hr e mode : (rectangular hr -> (0 < length e)%nat -> apply_ctf_eq pinv cond minph hr (Some e) OtherMode = Err ValueError) /\
  apply_ctf_eq pinv cond minph hr (Some []) mode = Err IndexError.
Proof. split; [intros R0 E; apply apply_invalid; [exact R0|exact E|reflexivity]|apply apply_empty]. Qed.
Lemma f2_spectrum n e k len xs ys : (0 < len)%nat -> (0 < length e)%nat -> (len + length e - 1 <= n)%nat -> Forall (fun x => length x = len) xs -> Forall2 (fun x y => cut_convolution x e 0 (len + length e - 1) y) xs ys ->
  Forall2 (fun x y => dft n y k = cproduct (dft n x k) (dft n e k)) xs ys.
Proof.
  intros L E N F F2. induction F2 as [|x y xs ys C F2 IH]; [constructor|]. inversion F as [|? ? LX FX]; subst. constructor; [|apply IH; exact FX]. apply dft_convolution; assumption || lia.
Qed.
Lemma f_spectrum pinv cond minph hr e hr' n k : rectangular hr -> (0 < length e)%nat -> (h_taps hr + length e - 1 <= n)%nat -> apply_ctf_eq pinv cond minph hr (Some e) Full = Ok (Some hr') ->
  Forall2 (fun x y => dft n y k = cproduct (dft n x k) (dft n e k)) (h_left hr) (h_left hr') /\ Forall2 (fun x y => dft n y k = cproduct (dft n x k) (dft n e k)) (h_right hr) (h_right hr').
Proof.
  intros R0 E N A. destruct (f_full pinv cond minph hr e R0 E) as (h & A' & Q). rewrite A in A'. injection A' as <-. destruct R0 as (G & GR & T & FL & FR). destruct Q as (_ & _ & _ & _ & _ & QL & QR).
  split; apply (f2_spectrum n e k (h_taps hr)); assumption.
Qed.
Lemma conv_sum_pulse x e d w t : (d < length e)%nat -> (forall j, (j < length e)%nat -> nth j e 0 = if Nat.eqb j d then w else 0) -> conv_sum x e (t + d) = w * nth t x 0.
Proof.
  intros D E. unfold conv_sum.
  rewrite (rsum_ext _ _ (fun i => if Nat.eqb i t then nth i x 0 * w else 0)).
  - destruct (Nat.lt_ge_cases t (length x)) as [T|T].
    + rewrite (rsum_single _ t); [rewrite Nat.eqb_refl; ring|exact T|]. intros i _ NE. rewrite (proj2 (Nat.eqb_neq i t)) by auto. reflexivity.
    + rewrite nth_overflow by exact T. rewrite rsum_0; [ring|]. intros i Hi. rewrite (proj2 (Nat.eqb_neq i t)) by lia. reflexivity.
  - intros i _. rewrite (rsum_single _ d); [|exact D|].
    + rewrite E, Nat.eqb_refl by exact D. destruct (Nat.eqb_spec (i + d) (t + d)), (Nat.eqb_spec i t); try lia; reflexivity.
    + intros j Hj NE. rewrite E, (proj2 (Nat.eqb_neq j d)) by auto. destruct (i + j =? t + d)%nat; ring.
Qed.
Lemma f2_pulse w len start e xs ys : (start < length e)%nat -> (forall j, (j < length e)%nat -> nth j e 0 = if Nat.eqb j start then w else 0) -> Forall (fun x => length x = len) xs -> Forall2 (fun x y => cut_convolution x e start len y) xs ys ->
  ys = map (map (Rmult w)) xs.
Proof.
  intros D E F F2. induction F2 as [|x y xs ys [L V] F2 IH]; [reflexivity|]. inversion F as [|? ? LX FX]; subst. cbn [map]. f_equal; [|apply IH; exact FX].
  apply (nth_ext _ _ 0 0); [rewrite map_length; lia|]. intros t Ht. rewrite V by lia. rewrite (conv_sum_pulse x e start w t D E). rewrite (nth_map_in _ x t 0 0) by lia. reflexivity.
Qed.
Lemma f_pulse pinv cond minph hr e w : rectangular hr -> (0 < length e)%nat -> (forall j, (j < length e)%nat -> nth j e 0 = if Nat.eqb j ((length e - 1) / 2) then w else 0) ->
  apply_ctf_eq pinv cond minph hr (Some e) Same = Ok (Some (scaled w hr)).
Proof.
  intros R0 E P. destruct (f_same pinv cond minph hr e R0 E) as (h & -> & Q). do 2 f_equal. destruct R0 as (G & GR & T & FL & FR). destruct h as [l r a z fs g t]. unfold equalised in Q. cbn [h_azi h_zen h_fs num_grid_points h_taps h_left h_right] in Q.
  destruct Q as (-> & -> & -> & -> & -> & QL & QR). assert (D : ((length e - 1) / 2 < length e)%nat) by (apply Nat.div_lt_upper_bound; lia).
  unfold scaled. rewrite (f2_pulse w _ _ _ _ _ D P FL QL), (f2_pulse w _ _ _ _ _ D P FR QR). reflexivity.
Qed.
(** ** resample_spectrum *)
Lemma f_odd : exists (resampler : Z -> Z -> list R -> res (list R)) x X Y, (forall fs x, resampler fs fs x = Ok x) /\ length x = 3%nat /\ spectrum_of x X /\
  resample_spectrum resampler X 48000 48000 = Ok Y /\ length Y = length X /\ nth 1 Y (0, 0) <> nth 1 X (0, 0).
Proof.
  exists (fun _ _ x => Ok x), [0; 1; 0], (rfft_n [0; 1; 0] 3). assert (S : spectrum_of [0; 1; 0] (rfft_n [0; 1; 0] 3)) by (apply (rfft_spectrum [0; 1; 0]); cbn; lia).
  assert (L : @length C2 (rfft_n [0; 1; 0] 3) = 2%nat) by reflexivity.
  destruct (resample_same (fun _ _ x => Ok x) (rfft_n [0; 1; 0] 3) 48000) as (Y & E & LY & V); [rewrite L; lia|reflexivity|].
  exists Y. split; [reflexivity|]. split; [reflexivity|]. split; [exact S|]. split; [exact E|]. split; [exact LY|].
  rewrite V by (rewrite L; lia). unfold real_ends. rewrite L. cbn [Nat.sub Nat.eqb orb]. destruct S as [_ S]. rewrite (S 1%nat) by (cbn; lia). intros Q. apply (f_equal snd) in Q. cbn [snd] in Q. unfold dft in Q. cbn [snd length] in Q.
  unfold rsum in Q. cbn [nth Nat.mul Nat.add INR] in Q.
  assert (P : 0 < sin (2 * PI * 1 / (1 + 1 + 1))) by (pose proof PI_RGT_0; apply sin_gt_0; lra). lra.
Qed.
Lemma ex_resample : spectrum_of [1; 2] (rfft_n [1; 2] 2) /\ Nat.even (@length R [1; 2]) = true /\ (1 < @length C2 (rfft_n [1; 2]%R 2))%nat.
Proof. split; [apply (rfft_spectrum [1; 2]); cbn; lia|]. split; [reflexivity|]. cbn. lia. Qed.
(** ** example sets *)
Definition two_pulses (taps : nat) (fs : Z) : hrirs :=
  Hrirs [pulse taps 0 1; pulse taps 2 (1 / 2)] [pulse taps 1 2; pulse taps 1 (-3)] [0; PI] [PI / 2; PI / 2] fs 2 taps.
Lemma inr_Z (k : nat) z : Z.of_nat k = z -> INR k = IZR z.
Proof. intros <-. apply INR_IZR_INZ. Qed.
Lemma two_all taps fs : (3 <= taps)%nat -> all_pulses (h_left (two_pulses taps fs)) taps (fun g => if Nat.eqb g 0 then 1 else 1 / 2) /\ all_pulses (h_right (two_pulses taps fs)) taps (fun g => if Nat.eqb g 0 then 2 else -3).
Proof.
  intros T. split; intros [|[|g]] Hg; cbn in Hg; try lia; cbn [nth h_left h_right two_pulses Nat.eqb].
  - exists 0%nat. split; [lia|]. intros t. apply nth_pulse. lia.
  - exists 2%nat. split; [lia|]. intros t. apply nth_pulse. lia.
  - exists 1%nat. split; [lia|]. intros t. apply nth_pulse. lia.
  - exists 1%nat. split; [lia|]. intros t. apply nth_pulse. lia.
Qed.
Lemma near' n (k : nat) kz fs nz f c : Z.of_nat n = nz -> Z.of_nat k = kz -> (k <= n / 2)%nat -> 0 < c -> fs / IZR nz = c -> Rabs (IZR kz * c - f) < c / 2 -> nearest_bin n fs f k.
Proof. intros N K L C E A. apply (near k c); [exact L|exact C|rewrite (inr_Z n nz N); exact E|rewrite (inr_Z k kz K); exact A]. Qed.
Lemma ex_flat : let hr := two_pulses 128 48000 in ctf_setup hr [2 * PI; 2 * PI] (125, 10000) 5 427 43 /\
  audible [2 * PI; 2 * PI] (h_left hr) (h_right hr) (16 * h_taps hr) /\
  exists e, hrirs_ctf (fun A => A) (fun _ => 1) (fun x => x) hr false (125, 10000) (Some [2 * PI; 2 * PI]) = Ok (Some e) /\ length e = 128%nat /\
    forall t, (t < 128)%nat -> nth t e 0 = if Nat.eqb t 65 then hann 128 65 else 0.
Proof.
  intros hr. pose proof PI_RGT_0 as PP.
  assert (St : ctf_setup hr [2 * PI; 2 * PI] (125, 10000) 5 427 43).
  { unfold ctf_setup. cbn [h_fs h_taps num_grid_points h_left h_right two_pulses hr fst snd length]. split; [lia|]. split; [lia|]. do 3 (split; [reflexivity|]).
    assert (H2 : (16 * 128 / 2 = 1024)%nat) by reflexivity.
    split; [|split]; (eapply near'; [vm_compute; reflexivity|vm_compute; reflexivity|rewrite H2; lia| |reflexivity|]; [lra|apply Rabs_def1; lra]). }
  destruct (two_all 128 48000 ltac:(lia)) as [PL PR].
  assert (EL : rsum 2 (fun g => nth g [2 * PI; 2 * PI] 0 * (if Nat.eqb g 0 then 1 else 1 / 2) ^ 2) = 5 / 2 * PI) by (unfold rsum; cbn [nth Nat.eqb]; field).
  assert (ER : rsum 2 (fun g => nth g [2 * PI; 2 * PI] 0 * (if Nat.eqb g 0 then 2 else -3) ^ 2) = 26 * PI) by (unfold rsum; cbn [nth Nat.eqb]; field).
  split; [exact St|]. split.
  - intros k _. rewrite (energy_pulses _ _ 128 _ _ _ PL), (energy_pulses _ _ 128 _ _ _ PR) by (reflexivity || (cbn [h_taps two_pulses hr]; lia)). cbn [length]. rewrite EL, ER. lra.
  - destruct (ctf_flat (fun A => A) (fun _ => 1) (fun x => x) hr false (125, 10000) (Some [2 * PI; 2 * PI]) [2 * PI; 2 * PI] 5 427 43 _ _ (or_introl eq_refl) St ltac:(lia) PL PR) as (e & E & L & V).
    + cbn [length]. rewrite EL. lra.
    + cbn [length]. rewrite ER. lra.
    + cbn [length]. rewrite EL, ER. lra.
    + exists e. split; [exact E|]. split; [exact L|]. intros t Ht. rewrite V by exact Ht. cbn [h_taps two_pulses hr]. replace (128 / 2 + 1)%nat with 65%nat by reflexivity. destruct (Nat.eqb_spec t 65) as [->|]; reflexivity.
Qed.
Lemma f_all_zero : exists hr w lo hi i, ctf_setup hr w (125, 10000) lo hi i /\ (5 <= i)%nat /\ audible w (h_left hr) (h_right hr) (16 * h_taps hr) /\
  forall pinv cond minph, hrirs_ctf pinv cond minph hr false (125, 10000) (Some w) = Ok (Some (repeat 0 (h_taps hr))).
Proof.
  set (hr := two_pulses 3 8000). pose proof PI_RGT_0 as PP. exists hr, [2 * PI; 2 * PI], 1%nat, 24%nat, 6%nat.
  assert (St : ctf_setup hr [2 * PI; 2 * PI] (125, 10000) 1 24 6).
  { unfold ctf_setup. cbn [h_fs h_taps num_grid_points h_left h_right two_pulses hr fst snd length]. split; [lia|]. split; [lia|]. do 3 (split; [reflexivity|]).
    assert (H2 : (16 * 3 / 2 = 24)%nat) by reflexivity.
    split; [|split].
    - eapply near'; [vm_compute; reflexivity|vm_compute; reflexivity|rewrite H2; lia| |reflexivity|]; [lra|apply Rabs_def1; lra].
    - unfold nearest_bin. rewrite H2. rewrite (inr_Z (16 * 3) 48 eq_refl), (inr_Z 24 24 eq_refl). split; [lia|]. split.
      + intros k Hk. apply le_INR in Hk. rewrite (inr_Z 24 24 eq_refl) in Hk. pose proof (pos_INR k). rewrite !Rabs_left1 by lra. lra.
      + intros k Hk. apply lt_INR in Hk. rewrite (inr_Z 24 24 eq_refl) in Hk. pose proof (pos_INR k). rewrite !Rabs_left1 by lra. lra.
    - eapply near'; [vm_compute; reflexivity|vm_compute; reflexivity|rewrite H2; lia| |reflexivity|]; [lra|apply Rabs_def1; lra]. }
  destruct (two_all 3 8000 ltac:(lia)) as [PL PR].
  assert (EL : rsum 2 (fun g => nth g [2 * PI; 2 * PI] 0 * (if Nat.eqb g 0 then 1 else 1 / 2) ^ 2) = 5 / 2 * PI) by (unfold rsum; cbn [nth Nat.eqb]; field).
  assert (ER : rsum 2 (fun g => nth g [2 * PI; 2 * PI] 0 * (if Nat.eqb g 0 then 2 else -3) ^ 2) = 26 * PI) by (unfold rsum; cbn [nth Nat.eqb]; field).
  split; [exact St|]. split; [lia|]. split.
  - intros k _. rewrite (energy_pulses _ _ 3 _ _ _ PL), (energy_pulses _ _ 3 _ _ _ PR) by (reflexivity || (cbn [h_taps two_pulses hr]; lia)). cbn [length]. rewrite EL, ER. lra.
  - intros pinv cond minph. destruct (ctf_flat pinv cond minph hr false (125, 10000) (Some [2 * PI; 2 * PI]) [2 * PI; 2 * PI] 1 24 6 _ _ (or_introl eq_refl) St ltac:(lia) PL PR) as (e & E & L & V).
    + cbn [length]. rewrite EL. lra.
    + cbn [length]. rewrite ER. lra.
    + cbn [length]. rewrite EL, ER. lra.
    + rewrite E. do 2 f_equal. apply (nth_ext _ _ 0 0); [rewrite L, repeat_length; reflexivity|]. intros t Ht. rewrite L in Ht. rewrite V by exact Ht. cbn [h_taps two_pulses hr] in *. replace (3 / 2 + 1)%nat with 2%nat by reflexivity.
      destruct t as [|[|[|t]]]; try lia; cbn [Nat.eqb repeat nth]; try reflexivity. unfold hann. cbn [Nat.eqb INR]. replace (2 * PI * (1 + 1) / (1 + 1 + 1 - 1)) with (2 * PI) by field. rewrite cos_2PI. lra.
Qed.
Lemma ex_low : exists hr w lo hi i, ctf_setup hr w (125, 10000) lo hi i /\ (i < 5)%nat /\ (2 <= h_taps hr)%nat /\ audible w (h_left hr) (h_right hr) (16 * h_taps hr).
Proof.
  set (hr := two_pulses 8 48000). pose proof PI_RGT_0 as PP. exists hr, [2 * PI; 2 * PI], 0%nat, 27%nat, 3%nat.
  split; [|split; [lia|split; [cbn [h_taps two_pulses hr]; lia|]]].
  - unfold ctf_setup. cbn [h_fs h_taps num_grid_points h_left h_right two_pulses hr fst snd length]. split; [lia|]. split; [lia|]. do 3 (split; [reflexivity|]).
    assert (H2 : (16 * 8 / 2 = 64)%nat) by reflexivity.
    split; [|split]; (eapply near'; [vm_compute; reflexivity|vm_compute; reflexivity|rewrite H2; lia| |reflexivity|]; [lra|apply Rabs_def1; lra]).
  - destruct (two_all 8 48000 ltac:(lia)) as [PL PR]. intros k _. rewrite (energy_pulses _ _ 8 _ _ _ PL), (energy_pulses _ _ 8 _ _ _ PR) by (reflexivity || (cbn [h_taps two_pulses hr]; lia)).
    unfold rsum; cbn [length nth Nat.eqb]; lra.
Qed.
Lemma ex_apply : let hr := Hrirs [[1; 2]; [0; 1]] [[2; 0]; [1; -1]] [0; PI] [PI / 2; PI / 2] 48000 2 2 in rectangular hr /\
  apply_ctf_eq (fun A => A) (fun _ => 1) (fun x => x) hr (Some [3; 4; 5]) Full = Ok (Some (Hrirs [[3; 10; 13; 10]; [0; 3; 4; 5]] [[6; 8; 10; 0]; [3; 1; 1; -5]] [0; PI] [PI / 2; PI / 2] 48000 2 4)).
Proof.
  intros hr. split.
  - unfold rectangular, hr. cbn [h_left h_right h_taps length]. repeat split; try lia; repeat constructor.
  - unfold apply_ctf_eq, conv_rows, convolve, conv_at, hr. cbn [h_left h_right h_taps h_azi h_zen h_fs num_grid_points length Nat.mul Nat.add Nat.sub Nat.eqb orb bind map seq]. unfold rsum. cbn [nth Nat.sub length].
    do 3 f_equal; repeat (f_equal; try ring).
Qed.
