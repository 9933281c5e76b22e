(** The gains of the fractional octave filter bank. *)
From Verif Require Import Base BaseFacts M_utils M_sig M_process S_process S_firwin P_proc1 P_proc2 P_proc3 P_proc4 P_proc5.
Require Import Lra Lia.
Open Scope R_scope.

Lemma slope_steep l x : fo_slope l x = steep l x.
Proof.
  revert x. induction l as [|l IH]; intros x; [reflexivity|]. cbn [fo_slope]. rewrite IH.
  clear IH. revert x. induction l as [|l IH]; intros x; [reflexivity|]. cbn [steep] in *. rewrite IH. reflexivity.
Qed.
Lemma steep_m1 l : steep l (-1) = -1.
Proof. induction l as [|l IH]; cbn [steep]; [reflexivity|]. rewrite IH. replace (PI / 2 * -1) with (- (PI / 2)) by ring. rewrite sin_neg, sin_PI2. reflexivity. Qed.
(** the curves of one transition *)
Lemma curves l k P j : (P <= k)%nat -> (k - P <= j <= k + P)%nat ->
  nth (j - (k - P)) (fo_a l (Z.of_nat P)) 0 = sin (crossfade l k P j) /\
  nth (j - (k - P)) (fo_b l (Z.of_nat P)) 0 = cos (crossfade l k P j).
Proof.
  intros HP J. assert (B : (j - (k - P) < 2 * P + 1)%nat) by lia.
  assert (E : PI / 2 * fo_shift (fo_slope l (nth (j - (k - P)) (fo_phi0 (Z.of_nat P)) 0)) = crossfade l k P j).
  { unfold crossfade. destruct (Nat.ltb_spec (j + P) k); [lia|]. destruct (Nat.leb_spec (k + P) j) as [A|A].
    - rewrite (proj2 (nth_phi0 P _ B)) by lia. rewrite fo_slope_1. unfold fo_shift. field.
    - rewrite slope_steep. unfold fo_phi0. rewrite nth_map_seq by lia. destruct (Z.eqb_spec (Z.of_nat P) 0); [lia|].
      replace (IZR (- Z.of_nat P + Z.of_nat (j - (k - P)))) with (INR j - INR k).
      2:{ rewrite !INR_IZR_INZ, <- minus_IZR. f_equal. lia. }
      rewrite <- INR_IZR_INZ. unfold fo_shift. field. }
  unfold fo_a, fo_b. rewrite !(nth_map_in _ _ _ 0 0) by (rewrite length_phi0; exact B). rewrite E. split; reflexivity.
Qed.
Lemma crossfade_low l k P j : (P <= k)%nat -> (1 <= k)%nat -> (j <= k - P)%nat -> (j < k + P)%nat -> crossfade l k P j = 0.
Proof.
  intros HP K J J2. unfold crossfade. destruct (Nat.ltb_spec (j + P) k); [reflexivity|]. destruct (Nat.leb_spec (k + P) j); [lia|].
  assert (E : (j = k - P)%nat) by lia. rewrite E, minus_INR by exact HP.
  assert (INR P <> 0) by (apply not_0_INR; lia).
  replace ((INR k - INR P - INR k) / INR P) with (-1) by (field; assumption). rewrite steep_m1. field.
Qed.
Lemma crossfade_below l k P j : (j + P < k)%nat -> crossfade l k P j = 0.
Proof. intros H. unfold crossfade. destruct (Nat.ltb_spec (j + P) k); [reflexivity|lia]. Qed.
Lemma crossfade_above l k P j : (k + P <= j)%nat -> crossfade l k P j = PI / 2.
Proof. intros H. unfold crossfade. destruct (Nat.ltb_spec (j + P) k); [lia|]. destruct (Nat.leb_spec (k + P) j); [reflexivity|lia]. Qed.

Section Bank.
Variables (l B M : nat) (k P : nat -> nat).
Hypothesis (HP : forall i, (i < M)%nat -> (P i <= k i)%nat) (HS : forall i, (S i < M)%nat -> (k i + P i + P (S i) <= k (S i))%nat)
  (HB : forall i, (i < M)%nat -> (k i + P i < B)%nat).
Definition rise (r j : nat) : R := match r with O => 1 | S i => sin (crossfade l (k i) (P i) j) end.
Definition bank_inv (g : list (list R)) (m : nat) : Prop :=
  length g = S M /\ (forall r, (r < S M)%nat -> length (nth r g []) = B) /\
  forall r j, (r < S M)%nat -> (j < B)%nat ->
    en g r j = if Nat.ltb r m then rise r j * cos (crossfade l (k r) (P r) j) else if Nat.eqb r m then rise r j else 1.
Lemma bank_step g m : bank_inv g m -> (m < M)%nat -> exists g', fo_band l g m (Z.of_nat (k m), Z.of_nat (P m)) = Ok g' /\ bank_inv g' (S m).
Proof.
  intros (L & LB & V) Hm. destruct (fo_band_spec l g m (k m) (P m) B ltac:(lia) ltac:(rewrite L; exact LB) (HP m Hm) ltac:(pose proof (HB m Hm); lia)) as (g' & E & L' & LB' & O & Ri & RSi).
  exists g'. split; [exact E|]. split; [lia|]. split; [intros r Hr; apply LB'; lia|].
  intros r j Hr Hj. destruct (Nat.eq_dec r m) as [->|N1]; [|destruct (Nat.eq_dec r (S m)) as [->|N2]].
  - rewrite Ri by exact Hj. destruct (Nat.ltb_spec m (S m)); [|lia].
    assert (R1 : (k m - P m <= j)%nat -> rise m j = 1).
    { intros J. destruct m as [|i]; [reflexivity|]. cbn [rise]. rewrite crossfade_above; [apply sin_PI2|]. pose proof (HS i Hm). lia. }
    destruct (Nat.leb_spec (k m + P m) j) as [A|A].
    + rewrite crossfade_above by exact A. rewrite cos_PI2. ring.
    + destruct (Nat.leb_spec (k m - P m) j) as [A2|A2].
      * rewrite (proj2 (curves l (k m) (P m) j (HP m Hm) ltac:(lia))). rewrite R1 by exact A2. ring.
      * rewrite V by lia. destruct (Nat.ltb_spec m m); [lia|]. rewrite Nat.eqb_refl. rewrite crossfade_below by lia. rewrite cos_0. ring.
  - rewrite RSi by exact Hj. destruct (Nat.ltb_spec (S m) (S m)); [lia|]. rewrite Nat.eqb_refl. cbn [rise].
    destruct (Nat.ltb_spec j (k m - P m)) as [A|A].
    + rewrite crossfade_below by lia. rewrite sin_0. reflexivity.
    + destruct (Nat.leb_spec j (k m + P m)) as [A2|A2].
      * rewrite (proj1 (curves l (k m) (P m) j (HP m Hm) ltac:(lia))). reflexivity.
      * rewrite V by lia. destruct (Nat.ltb_spec (S m) m); [lia|]. destruct (Nat.eqb_spec (S m) m); [lia|]. rewrite crossfade_above by lia. rewrite sin_PI2. reflexivity.
  - rewrite O by assumption. rewrite V by lia. destruct (Nat.ltb_spec r m), (Nat.ltb_spec r (S m)); try lia; [reflexivity|].
    destruct (Nat.eqb_spec r m); [lia|]. destruct (Nat.eqb_spec r (S m)); [lia|]. reflexivity.
Qed.
Lemma bank_run q : forall m g, (m + q = M)%nat -> bank_inv g m ->
  exists g', fo_bands l m (map zpair (map (fun i => (k i, P i)) (seq m q))) g = Ok g' /\ bank_inv g' M.
Proof.
  induction q as [|q IH]; intros m g Hq HI; cbn [seq map fo_bands].
  - exists g. replace M with m by lia. split; [reflexivity|exact HI].
  - change (zpair (k m, P m)) with (Z.of_nat (k m), Z.of_nat (P m)).
    destruct (bank_step g m HI ltac:(lia)) as (g1 & E1 & I1). rewrite E1. cbn [bind]. apply IH; [lia|exact I1].
Qed.
Lemma bank_start : bank_inv (repeat (repeat 1 B) (M + 1)) 0.
Proof.
  split; [rewrite repeat_length; lia|]. split; [intros r Hr; rewrite nth_repeat_in by lia; apply repeat_length|].
  intros r j Hr Hj. unfold en. rewrite nth_repeat_in by lia. rewrite nth_repeat_in by exact Hj. destruct (Nat.ltb_spec r 0); [lia|].
  destruct (Nat.eqb_spec r 0) as [->|]; reflexivity.
Qed.
End Bank.

Lemma limits_value n fs f_low M r : (1 <= M)%nat -> (r < S M)%nat ->
  nth r (fo_limits n fs (map (centre n f_low) (seq 0 M))) (0, 0, 0) = band_limit n f_low fs M r.
Proof.
  intros HM Hr. unfold fo_limits. rewrite !map_length, seq_length, map_map.
  set (rws := map (fun i => (fo_lo n (centre n f_low i), centre n f_low i, fo_hi n (centre n f_low i))) (seq 0 M)).
  assert (Lr : length rws = M) by (unfold rws; rewrite map_length, seq_length; auto).
  assert (R : forall i, (i < M)%nat -> nth i rws (0, 0, 0) =
     (fo_lo n (centre n f_low i), centre n f_low i, fo_hi n (centre n f_low i))).
  { intros i Hi. unfold rws. rewrite nth_map_seq by auto. reflexivity. }
  rewrite (R (M - 1)%nat) by lia. set (u := upd rws (M - 1) _).
  assert (U : forall i, (i < M)%nat -> nth i u (0, 0, 0) = band_limit n f_low fs M (S i)).
  { intros i Hi. unfold u, band_limit. cbv zeta. destruct (Nat.eqb_spec (S i) M) as [E|E].
    - replace (M - 1)%nat with i by lia. rewrite nth_upd_same by lia. reflexivity.
    - rewrite nth_upd_other by lia. rewrite R by exact Hi. reflexivity. }
  rewrite (U 0%nat) by lia. replace (band_limit n f_low fs M 1) with (centre n f_low 0 / half_step n, snd (fst (band_limit n f_low fs M 1)), snd (band_limit n f_low fs M 1)).
  2:{ unfold band_limit. cbv zeta. destruct (Nat.eqb 1 M); reflexivity. }
  destruct r as [|i]; cbn [nth].
  - unfold band_limit. cbv zeta. rewrite Rmult_1_l. reflexivity.
  - apply U. lia.
Qed.

Lemma filterbank_gains n N_out fs f_low f_high mode overlap slope M k P :
  1 <= n -> (1 <= N_out)%nat -> (0 < fs)%Z -> 0 < f_low -> 0 <= overlap <= 1 / 2 ->
  band_count n f_low (eff_high fs f_high) M ->
  transitions N_out (IZR fs) n f_low overlap M k P -> separated N_out M k P -> mode <> OtherMode ->
  exists fuel0, forall fuel g ff, (fuel0 <= fuel)%nat ->
    frac_octave_filterbank fuel n N_out fs f_low f_high mode overlap slope = Ok (g, ff) ->
    length g = S M /\ length ff = S M /\ forall r, (r < S M)%nat -> nth r ff (0, 0, 0) = band_limit n f_low (IZR fs) M r /\ length (nth r g []) = N_out /\
    forall j, (j < N_out)%nat ->
      nth j (nth r g []) 0 = match mode with Amplitude => Rsqr (band_gain slope M k P r j) | _ => band_gain slope M k P r j end.
Proof.
  intros Hn HN Hfs Hf Ho HM HT [S1 S2] Hmode. assert (Hfs' : 0 < IZR fs) by (apply IZR_lt; auto).
  destruct (centres_terminate n f_low (eff_high fs f_high) ltac:(lra) Hf) as (fuel0 & F0).
  assert (HP : forall i, (i < M)%nat -> (P i <= k i)%nat) by (intros i Hi; apply (transitions_P_le_k N_out (IZR fs) n f_low overlap M k P); auto; lia).
  destruct (bank_run slope N_out M k P HP S1 S2 M 0 _ ltac:(lia) (bank_start slope N_out M k P)) as (g0 & Eg & Lg & LB & V).
  exists fuel0. intros fuel g ff Hfu. destruct (F0 fuel Hfu) as [fcs Efc].
  pose proof (centres_value _ n f_low _ fcs M ltac:(lra) Hf Efc HM) as Vc.
  unfold frac_octave_filterbank. fold (eff_high fs f_high).
  replace (Rleb overlap (1 / 2)) with true by (symmetry; apply Rleb_true; lra).
  cbn [assert_ bind]. rewrite Efc. cbn [bind]. rewrite Vc.
  rewrite (transitions_kps N_out (IZR fs) n f_low overlap M k P ltac:(lra) HT).
  rewrite map_length, seq_length. rewrite Eg. cbn [bind].
  assert (VV : forall r j, (r < S M)%nat -> (j < N_out)%nat -> nth j (nth r g0 []) 0 = band_gain slope M k P r j).
  { intros r j Hr Hj. change (nth j (nth r g0 []) 0) with (en g0 r j). rewrite V by assumption. unfold band_gain.
    fold (rise slope k P r j). destruct (Nat.ltb_spec r M); [reflexivity|]. destruct (Nat.eqb_spec r M); [ring|lia]. }
  assert (M1 : (1 <= M)%nat) by (destruct HM; auto).
  assert (Lff : length (fo_limits n (IZR fs) (map (centre n f_low) (seq 0 M))) = S M) by (rewrite length_limits; [rewrite map_length, seq_length; auto|destruct M; [lia|discriminate]]).
  destruct mode; [| |congruence]; cbn [bind]; intros [= <- <-].
  - split; [exact Lg|]. split; [exact Lff|]. intros r Hr. split; [apply limits_value; assumption|]. split; [apply LB; exact Hr|]. intros j Hj. apply VV; assumption.
  - split; [rewrite map_length; exact Lg|]. split; [exact Lff|]. intros r Hr. rewrite (nth_map_in _ g0 r [] []) by lia. split; [apply limits_value; assumption|]. split; [rewrite map_length; apply LB; exact Hr|].
    intros j Hj. rewrite (nth_map_in _ _ j 0 0) by (rewrite LB by exact Hr; exact Hj). rewrite VV by assumption. unfold Rsqr. ring.
Qed.
