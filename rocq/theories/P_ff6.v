(** Forward-backward filters multiply a sinusoid by the squared gain, away from the ends. *)
From Coq Require Import Lra Lia Ring.
From Verif Require Import Base BaseFacts M_utils M_sig M_sph0 M_sph M_parsa3 M_process3 S_process3 M_zp S_zp P_lfilter P_proc1 P_cplx P_zp1 P_zp2 P_zp3 S_process4 P_sig M_process M_process4 P_ff1 P_ff2 P_ff3 P_ff5.
Open Scope R_scope.

Lemma pow_anti r n m : 0 < r < 1 -> (n <= m)%nat -> r ^ m <= r ^ n.
Proof. intros H L. replace m with (n + (m - n))%nat by lia. rewrite pow_add. rewrite <- (Rmult_1_r (r ^ n)) at 2. apply Rmult_le_compat_l; [apply pow_le; lra|]. rewrite <- (pow1 (m - n)). apply pow_incr. lra. Qed.
Lemma cv_of_taps a d n : cv (sq a) (fun k => d (Z.of_nat k)) n = taps a d (Z.of_nat n) - rsum (length a - S n) (fun j => nth (S n + j) a 0 * d (- Z.of_nat (S j))%Z).
Proof. rewrite taps_nat. ring. Qed.
(** what the past and the first samples leave behind dies out *)
Lemma pass_bound b a l rho n0 : nth 0 a 0 <> 0 -> all_roots a l -> 0 < rho < 1 -> inside rho l -> (length a + length b <= n0)%nat ->
  exists Q, 0 <= Q /\ forall (de d : Z -> R) M V W1 W2, 0 <= V -> 0 <= W1 -> 0 <= W2 -> (forall n : nat, (n < M)%nat -> taps a d (Z.of_nat n) = taps b de (Z.of_nat n)) ->
    (forall m, (m < 0)%Z -> Rabs (d m) <= V) -> (forall m, (m < Z.of_nat M)%Z -> Rabs (de m) <= W1) -> (forall m : nat, (n0 - length b <= m < M)%nat -> Rabs (de (Z.of_nat m)) <= W2 * (/ rho) ^ m) ->
    forall n : nat, (n < M)%nat -> Rabs (d (Z.of_nat n)) <= Q * ((W1 + V) * rho ^ n + W2 * (/ rho) ^ n).
Proof.
  intros A RT R0 IN LN. assert (RI : 1 < / rho) by (rewrite <- Rinv_1; apply Rinv_lt_contravar; lra). destruct (rec_bound a l rho (/ rho) A RT ltac:(lra) ltac:(lra) IN ltac:(intros p I; specialize (IN p I); lra)) as (Q & Q0 & HQ).
  set (Sb := asum b). set (Sa := asum a). pose proof (asum_ge0 b) as SB. pose proof (asum_ge0 a) as SA. fold Sb in SB. fold Sa in SA. pose proof (pow_lt rho n0 ltac:(lra)) as P0. pose proof (Rinv_0_lt_compat _ P0) as I0. assert (C0 : 0 <= (Sb + Sa) * / rho ^ n0) by (apply Rmult_le_pos; lra).
  exists (Q * ((Sb + Sa) * / rho ^ n0 + Sb)). split; [apply Rmult_le_pos; lra|]. intros de d M V W1 W2 V0 W10 W20 E DV D1 D2 n N.
  set (u := fun n : nat => taps b de (Z.of_nat n) - rsum (length a - S n) (fun j => nth (S n + j) a 0 * d (- Z.of_nat (S j))%Z)).
  assert (U : forall k, (k <= n)%nat -> Rabs (u k) <= (Sb + Sa) * / rho ^ n0 * (W1 + V) * rho ^ k + Sb * W2 * (/ rho) ^ k).
  { intros k K. unfold u. pose proof (pow_lt rho k ltac:(lra)) as PK. pose proof (pow_lt (/ rho) k ltac:(lra)) as PI. destruct (Nat.lt_ge_cases k n0) as [H|H].
    - assert (B : Rabs (taps b de (Z.of_nat k) - rsum (length a - S k) (fun j => nth (S k + j) a 0 * d (- Z.of_nat (S j))%Z)) <= Sb * W1 + Sa * V).
      { eapply Rle_trans; [apply Rabs_triang|]. rewrite Rabs_Ropp. apply Rplus_le_compat; [apply taps_bound; [exact W10|]; intros i I; apply D1; lia|apply past_bound; [exact V0|exact DV]]. }
      assert (G : 1 <= / rho ^ n0 * rho ^ k). { apply (Rmult_le_reg_l (rho ^ n0)); [exact P0|]. rewrite <- Rmult_assoc, Rinv_r, Rmult_1_l, Rmult_1_r by lra. apply pow_anti; [exact R0|lia]. }
      assert (X : Sb * W1 + Sa * V <= (Sb + Sa) * (W1 + V)) by nra. assert (X0 : 0 <= (Sb + Sa) * (W1 + V)) by (apply Rmult_le_pos; lra). assert (Y : 0 <= Sb * W2 * (/ rho) ^ k) by (apply Rmult_le_pos; [apply Rmult_le_pos|]; lra).
      assert (Z : (Sb + Sa) * (W1 + V) * 1 <= (Sb + Sa) * (W1 + V) * (/ rho ^ n0 * rho ^ k)) by (apply Rmult_le_compat_l; assumption). replace ((Sb + Sa) * / rho ^ n0 * (W1 + V) * rho ^ k) with ((Sb + Sa) * (W1 + V) * (/ rho ^ n0 * rho ^ k)) by ring. lra.
    - replace (length a - S k)%nat with 0%nat by lia. change (rsum 0 _) with 0. rewrite Rminus_0_r. assert (B : Rabs (taps b de (Z.of_nat k)) <= Sb * (W2 * (/ rho) ^ k)).
      { apply taps_bound; [apply Rmult_le_pos; lra|]. intros i I. replace (Z.of_nat k - Z.of_nat i)%Z with (Z.of_nat (k - i)) by lia. eapply Rle_trans; [apply D2; lia|]. apply Rmult_le_compat_l; [exact W20|]. apply Rle_pow; [lra|lia]. }
      assert (0 <= (Sb + Sa) * / rho ^ n0 * (W1 + V) * rho ^ k) by (apply Rmult_le_pos; [apply Rmult_le_pos|]; lra). lra. }
  assert (H : Rabs (d (Z.of_nat n)) <= Q * ((Sb + Sa) * / rho ^ n0 * (W1 + V) * rho ^ n + Sb * W2 * (/ rho) ^ n)).
  { apply (HQ (fun k => d (Z.of_nat k)) u n ((Sb + Sa) * / rho ^ n0 * (W1 + V)) (Sb * W2)); try (apply Rmult_le_pos; lra); [|exact U|lia]. intros k K. unfold u. rewrite cv_of_taps, E by lia. reflexivity. }
  eapply Rle_trans; [exact H|]. rewrite (Rmult_assoc Q). apply Rmult_le_compat_l; [exact Q0|]. pose proof (pow_lt rho n ltac:(lra)) as PK. pose proof (pow_lt (/ rho) n ltac:(lra)) as PI. set (c := (Sb + Sa) * / rho ^ n0) in *. assert (X : 0 <= (W1 + V) * rho ^ n) by (apply Rmult_le_pos; lra). assert (Y : 0 <= W2 * (/ rho) ^ n) by (apply Rmult_le_pos; lra).
  replace (c * (W1 + V) * rho ^ n + Sb * W2 * (/ rho) ^ n) with (c * ((W1 + V) * rho ^ n) + Sb * (W2 * (/ rho) ^ n)) by ring. nra.
Qed.
Lemma pass_bounded b a l rho : nth 0 a 0 <> 0 -> all_roots a l -> 0 < rho < 1 -> inside rho l ->
  exists Q, 0 <= Q /\ forall (de d : Z -> R) M V W, 0 <= V -> 0 <= W -> (forall n : nat, (n < M)%nat -> taps a d (Z.of_nat n) = taps b de (Z.of_nat n)) ->
    (forall m, (m < 0)%Z -> Rabs (d m) <= V) -> (forall m, (m < Z.of_nat M)%Z -> Rabs (de m) <= W) -> forall n : nat, (n < M)%nat -> Rabs (d (Z.of_nat n)) <= Q * (W + V).
Proof.
  intros A RT R0 IN. destruct (rec_bound a l 1 1 A RT ltac:(lra) ltac:(lra) ltac:(intros p I; specialize (IN p I); lra) ltac:(intros p I; specialize (IN p I); lra)) as (Q & Q0 & HQ).
  pose proof (asum_ge0 b) as SB. pose proof (asum_ge0 a) as SA. exists (Q * (asum b + asum a)). split; [apply Rmult_le_pos; lra|]. intros de d M V W V0 W0 E DV D n N. rewrite Rmult_assoc.
  pose proof (HQ (fun k => d (Z.of_nat k)) (fun k => taps b de (Z.of_nat k) - rsum (length a - S k) (fun j => nth (S k + j) a 0 * d (- Z.of_nat (S j))%Z)) n ((asum b + asum a) * (W + V)) 0) as H. replace ((asum b + asum a) * (W + V)) with ((asum b + asum a) * (W + V) * 1 ^ n + 0 * 1 ^ n) by (rewrite pow1; ring).
  apply H; [apply Rmult_le_pos; lra|lra| | |lia].
  - intros k K. rewrite cv_of_taps, E by lia. reflexivity.
  - intros k K. rewrite Rmult_0_l, Rplus_0_r, pow1, Rmult_1_r. eapply Rle_trans; [apply Rabs_triang|]. rewrite Rabs_Ropp. apply Rle_trans with (asum b * W + asum a * V); [|nra]. apply Rplus_le_compat; [apply taps_bound; [exact W0|]; intros i I; apply D; lia|apply past_bound; [exact V0|exact DV]].
Qed.
Lemma turned_bound x A m : 0 <= A -> (forall n, (n < length x)%nat -> Rabs (nth n x 0) <= A) -> Rabs (turned x m) <= 3 * A.
Proof.
  intros A0 H. assert (G : forall n, - A <= nth n x 0 <= A). { intros n. destruct (Nat.lt_ge_cases n (length x)) as [L|L]; [specialize (H n L); unfold Rabs in H; destruct (Rcase_abs (nth n x 0)); lra|]. rewrite nth_overflow by exact L. lra. }
  apply Rabs_le. unfold turned. destruct (m <? 0)%Z; [|destruct (m <? _)%Z].
  - pose proof (G (Z.to_nat 0)). pose proof (G (Z.to_nat (- m))). lra.
  - pose proof (G (Z.to_nat m)). lra.
  - pose proof (G (Z.to_nat (Z.of_nat (length x) - 1))). pose proof (G (Z.to_nat (2 * (Z.of_nat (length x) - 1) - m))). lra.
Qed.
Lemma wave_bound h k t : Rabs (h * cos t + k * sin t) <= Rabs h + Rabs k.
Proof.
  eapply Rle_trans; [apply Rabs_triang|]. rewrite !Rabs_mult. pose proof (Rabs_pos h). pose proof (Rabs_pos k). assert (Rabs (cos t) <= 1) by (apply Rabs_le; pose proof (COS_bound t); lra). assert (Rabs (sin t) <= 1) by (apply Rabs_le; pose proof (SIN_bound t); lra). nra.
Qed.
Lemma fb_wave b a l rho e : nth 0 a 0 <> 0 -> all_roots a l -> 0 < rho < 1 -> inside rho l ->
  exists K, 0 <= K /\ forall A t f x w, (forall n, (n < length x)%nat -> nth n x 0 = A * cos (t * INR n + f)) -> forward_backward b a e x w ->
    forall n, (n < length x)%nat -> Rabs (nth n w 0 - power b t / power a t * nth n x 0) <= K * Rabs A * (rho ^ n + rho ^ (length x - 1 - n)).
Proof.
  intros A0 RT R0 IN. set (n0 := (e + length a + length b)%nat). destruct (pass_bound b a l rho n0 A0 RT R0 IN ltac:(unfold n0; lia)) as (Q1 & Q10 & H1). destruct (pass_bounded b a l rho A0 RT R0 IN) as (Q2 & Q20 & H2).
  set (Sb := asum b). set (Sa := asum a). pose proof (asum_ge0 b) as SB. pose proof (asum_ge0 a) as SA. fold Sb in SB. fold Sa in SA. set (Pm := (Rabs (nth 0 a 0) * (1 - rho) ^ length l) ^ 2). assert (PM : 0 < Pm) by (unfold Pm; apply pow_lt; apply Rmult_lt_0_compat; [apply Rabs_pos_lt; exact A0|apply pow_lt; lra]). pose proof (Rinv_0_lt_compat _ PM) as IPM.
  set (Hm := 2 * Sb * Sa * / Pm). assert (HM : 0 <= Hm) by (unfold Hm; repeat apply Rmult_le_pos; lra). set (gm := 2 * Sb ^ 2 * / Pm). assert (GM : 0 <= gm) by (unfold gm; repeat apply Rmult_le_pos; try lra; cbn; nra).
  set (G := dc_gain b a). pose proof (Rabs_pos G) as G0. set (V1 := 3 * Rabs G + 2 * Hm). set (D1 := Q1 * (4 + V1)). set (D2 := Q2 * (4 + V1)). assert (V10 : 0 <= V1) by (unfold V1; lra). assert (D10 : 0 <= D1) by (apply Rmult_le_pos; lra). assert (D20 : 0 <= D2) by (apply Rmult_le_pos; lra).
  set (E1 := D2 + 4 * Hm). set (V2 := Rabs G * (D2 + 2 * Hm) + gm). assert (V20 : 0 <= V2) by (unfold V2; assert (0 <= Rabs G * (D2 + 2 * Hm)) by (apply Rmult_le_pos; lra); lra). exists (Q1 * (E1 + D1 + V2 + D1)). split; [apply Rmult_le_pos; unfold E1; lra|].
  intros A t f x w X (LW & ext & y & v & LE & EX & Y & V & W) n N. set (M := (length x + 2 * e)%nat) in *. pose proof (proj1 Y) as LY. pose proof (proj1 V) as LV. rewrite !rev_length in LV. set (A' := Rabs A). assert (A'0 : 0 <= A') by apply Rabs_pos.
  set (f' := f - t * INR e). set (Ac := pc a t). set (As := ps a t). set (Bc := pc b t). set (Bs := ps b t). set (P := Ac ^ 2 + As ^ 2). assert (PP : Pm <= P) by (unfold P, Ac, As; rewrite <- power_pc; apply power_lower; try assumption; lra). assert (P0 : 0 < P) by lra. assert (IP : / P <= / Pm) by (apply Rinv_le_contravar; assumption). pose proof (Rinv_0_lt_compat _ P0) as IP0.
  set (hc := (Bc * Ac + Bs * As) / P). set (hs := (Bs * Ac - Bc * As) / P). assert (EQ1 : hc * Ac - hs * As = Bc) by (unfold hc, hs, P; field; unfold P in P0; lra). assert (EQ2 : hc * As + hs * Ac = Bs) by (unfold hc, hs, P; field; unfold P in P0; lra).
  set (g := power b t / power a t). assert (EG : g = (Bc ^ 2 + Bs ^ 2) / P) by (unfold g, P, Ac, As, Bc, Bs; rewrite !power_pc; reflexivity). assert (EQ3 : hc * Bc + hs * Bs = g * Ac) by (rewrite EG; unfold hc, hs; field; lra). assert (EQ4 : hs * Bc - hc * Bs = - g * As) by (rewrite EG; unfold hc, hs; field; lra).
  destruct (pc_bound a t) as [BA1 BA2]. destruct (pc_bound b t) as [BB1 BB2]. fold Ac As Sa in BA1, BA2. fold Bc Bs Sb in BB1, BB2.
  assert (PR : forall p q u v : R, Rabs p <= u -> Rabs q <= v -> Rabs (p * q) <= u * v) by (intros p q u0 v0 HP HQ'; rewrite Rabs_mult; apply Rmult_le_compat; try apply Rabs_pos; assumption).
  assert (HC : Rabs hc <= Hm). { unfold hc, Rdiv. rewrite Rabs_mult, (Rabs_pos_eq (/ P)) by lra. unfold Hm. apply Rmult_le_compat; try apply Rabs_pos; try lra. eapply Rle_trans; [apply Rabs_triang|]. pose proof (PR _ _ _ _ BB1 BA1). pose proof (PR _ _ _ _ BB2 BA2). lra. }
  assert (HS : Rabs hs <= Hm). { unfold hs, Rdiv. rewrite Rabs_mult, (Rabs_pos_eq (/ P)) by lra. unfold Hm. apply Rmult_le_compat; try apply Rabs_pos; try lra. eapply Rle_trans; [apply Rabs_triang|]. rewrite Rabs_Ropp. pose proof (PR _ _ _ _ BB2 BA1). pose proof (PR _ _ _ _ BB1 BA2). lra. }
  assert (HG : Rabs g <= gm). { rewrite EG. unfold Rdiv. rewrite Rabs_mult, (Rabs_pos_eq (/ P)) by lra. unfold gm. apply Rmult_le_compat; try apply Rabs_pos; try lra. eapply Rle_trans; [apply Rabs_triang|]. replace (Bc ^ 2) with (Bc * Bc) by ring. replace (Bs ^ 2) with (Bs * Bs) by ring. pose proof (PR _ _ _ _ BB1 BB1). pose proof (PR _ _ _ _ BB2 BB2). replace (2 * Sb ^ 2) with (Sb * Sb + Sb * Sb) by ring. lra. }
  set (s := fun m : Z => A * cos (t * IZR m + f') + 0 * sin (t * IZR m + f')). set (o := fun m : Z => A * hc * cos (t * IZR m + f') + A * hs * sin (t * IZR m + f')).
  assert (SO : forall m, taps a o m = taps b s m). { intros m. unfold o, s. rewrite !taps_wave. fold Ac As Bc Bs. rewrite <- EQ1, <- EQ2. ring. }
  assert (BS : forall m, Rabs (s m) <= A'). { intros m. unfold s. eapply Rle_trans; [apply wave_bound|]. rewrite Rabs_R0. unfold A'. lra. }
  assert (BO : forall m, Rabs (o m) <= 2 * Hm * A'). { intros m. unfold o. eapply Rle_trans; [apply wave_bound|]. rewrite !Rabs_mult. fold A'. nra. }
  assert (XB : forall i, (i < length x)%nat -> Rabs (nth i x 0) <= A'). { intros i I. rewrite X by exact I. pose proof (wave_bound A 0 (t * INR i + f)) as B. rewrite Rabs_R0, Rmult_0_l, !Rplus_0_r in B. exact B. }
  assert (XE : forall i, (i < M)%nat -> Rabs (nth i ext 0) <= 3 * A') by (intros i I; rewrite EX by lia; apply turned_bound; assumption).
  assert (XM : forall i, (e <= i < e + length x)%nat -> nth i ext 0 = s (Z.of_nat i)). { intros i I. rewrite EX by lia. rewrite turned_in by lia. replace (Z.to_nat (Z.of_nat i - Z.of_nat e)) with (i - e)%nat by lia. rewrite X by lia. unfold s, f'. rewrite <- INR_IZR_INZ, minus_INR by lia. replace (t * (INR i - INR e) + f) with (t * INR i + (f - t * INR e)) by ring. ring. }
  set (x0 := nth 0 ext 0). assert (X0 : Rabs x0 <= 3 * A') by (apply XE; lia).
  (* forwards *)
  set (de := fun m : Z => held x0 ext m - s m). set (d := fun m : Z => held (G * x0) y m - o m).
  assert (DE : forall n : nat, (n < M)%nat -> taps a d (Z.of_nat n) = taps b de (Z.of_nat n)). { intros i I. unfold d, de. rewrite !taps_minus, SO. f_equal. apply (proj2 Y). lia. }
  assert (DV : forall m, (m < 0)%Z -> Rabs (d m) <= V1 * A'). { intros m Hm'. unfold d, held. destruct (Z.ltb_spec m 0); [|lia]. eapply Rle_trans; [apply Rabs_triang|]. rewrite Rabs_Ropp, Rabs_mult. pose proof (BO m). unfold V1. nra. }
  assert (DW : forall m, (m < Z.of_nat M)%Z -> Rabs (de m) <= 4 * A'). { intros m Hm'. unfold de, held. eapply Rle_trans; [apply Rabs_triang|]. rewrite Rabs_Ropp. pose proof (BS m). destruct (Z.ltb_spec m 0); [lra|]. pose proof (XE (Z.to_nat m) ltac:(lia)). lra. }
  assert (DB : forall i, (i < M)%nat -> Rabs (d (Z.of_nat i)) <= D2 * A'). { intros i I. pose proof (H2 de d M (V1 * A') (4 * A') ltac:(apply Rmult_le_pos; assumption) ltac:(lra) DE DV DW i I) as B. unfold D2. lra. }
  assert (DD : forall i, (i < e + length x)%nat -> Rabs (d (Z.of_nat i)) <= D1 * A' * rho ^ i). { intros i I. pose proof (H1 de d (e + length x)%nat (V1 * A') (4 * A') 0 ltac:(apply Rmult_le_pos; assumption) ltac:(lra) ltac:(lra) ltac:(intros k K; apply DE; lia) DV ltac:(intros m Hm'; apply DW; lia)) as B. assert (Z0 : forall m : nat, (n0 - length b <= m < e + length x)%nat -> Rabs (de (Z.of_nat m)) <= 0 * (/ rho) ^ m). { intros m Hm'. unfold de, held. destruct (Z.ltb_spec (Z.of_nat m) 0); [lia|]. rewrite Nat2Z.id, XM by (unfold n0 in Hm'; lia). rewrite Rminus_diag_eq by reflexivity. rewrite Rabs_R0. lra. } specialize (B Z0 i I). unfold D1. rewrite Rmult_0_l, Rplus_0_r in B. replace (4 * A' + V1 * A') with ((4 + V1) * A') in B by ring. lra. }
  (* backwards *)
  set (y0 := nth 0 (rev y) 0). set (back := fun (h : Z -> R) (q : Z) => h (Z.of_nat M - 1 - q)%Z). assert (RY : forall q, (q < M)%nat -> nth q (rev y) 0 = nth (M - 1 - q) y 0) by (intros q Hq; rewrite nth_rev' by lia; f_equal; lia).
  assert (DY : forall i, (i < M)%nat -> nth i y 0 = d (Z.of_nat i) + o (Z.of_nat i)). { intros i I. unfold d, held. destruct (Z.ltb_spec (Z.of_nat i) 0); [lia|]. rewrite Nat2Z.id. ring. }
  assert (Y0 : Rabs y0 <= (D2 + 2 * Hm) * A'). { unfold y0. rewrite RY by lia. rewrite DY by lia. eapply Rle_trans; [apply Rabs_triang|]. pose proof (DB (M - 1 - 0)%nat ltac:(lia)). pose proof (BO (Z.of_nat (M - 1 - 0))). lra. }
  set (de2 := fun q : Z => held y0 (rev y) q - back o q). set (d2 := fun q : Z => held (G * y0) (rev v) q - back (fun m => g * s m) q).
  assert (BK : forall h k q, back (fun m : Z => h * cos (t * IZR m + f') + k * sin (t * IZR m + f')) q = h * cos ((- t) * IZR q + (t * IZR (Z.of_nat M - 1) + f')) + k * sin ((- t) * IZR q + (t * IZR (Z.of_nat M - 1) + f'))). { intros h k q. unfold back. rewrite !minus_IZR. replace (t * (IZR (Z.of_nat M) - 1 - IZR q) + f') with (- t * IZR q + (t * (IZR (Z.of_nat M) - 1) + f')) by ring. reflexivity. }
  assert (SO2 : forall q, taps a (back (fun m => g * s m)) q = taps b (back o) q).
  { intros q. rewrite (taps_ext a (back (fun m => g * s m)) (fun q => g * A * cos ((- t) * IZR q + (t * IZR (Z.of_nat M - 1) + f')) + 0 * sin ((- t) * IZR q + (t * IZR (Z.of_nat M - 1) + f'))) q) by (intros m _; rewrite <- BK; unfold back, s; ring).
    rewrite (taps_ext b (back o) (fun q => A * hc * cos ((- t) * IZR q + (t * IZR (Z.of_nat M - 1) + f')) + A * hs * sin ((- t) * IZR q + (t * IZR (Z.of_nat M - 1) + f'))) q) by (intros m _; apply BK). rewrite !taps_wave, !pc_neg, !ps_neg. fold Ac As Bc Bs.
    replace (A * hc * Bc - A * hs * - Bs) with (A * (hc * Bc + hs * Bs)) by ring. replace (A * hc * - Bs + A * hs * Bc) with (A * (hs * Bc - hc * Bs)) by ring. rewrite EQ3, EQ4. ring. }
  assert (DE2 : forall n : nat, (n < M)%nat -> taps a d2 (Z.of_nat n) = taps b de2 (Z.of_nat n)). { intros i I. unfold d2, de2. rewrite !taps_minus, SO2. f_equal. apply (proj2 V). rewrite rev_length. lia. }
  assert (DV2 : forall m, (m < 0)%Z -> Rabs (d2 m) <= V2 * A'). { intros m Hm'. unfold d2, held. destruct (Z.ltb_spec m 0); [|lia]. eapply Rle_trans; [apply Rabs_triang|]. rewrite Rabs_Ropp. unfold back. rewrite !Rabs_mult. pose proof (BS (Z.of_nat M - 1 - m)%Z) as B. pose proof (Rabs_pos (s (Z.of_nat M - 1 - m)%Z)). pose proof (Rabs_pos g). assert (Rabs G * Rabs y0 <= Rabs G * ((D2 + 2 * Hm) * A')) by (apply Rmult_le_compat_l; assumption). assert (Rabs g * Rabs (s (Z.of_nat M - 1 - m)%Z) <= gm * A') by (apply Rmult_le_compat; assumption). unfold V2. lra. }
  assert (IN2 : forall q : nat, (q < M)%nat -> de2 (Z.of_nat q) = d (Z.of_nat (M - 1 - q))). { intros q Hq. unfold de2, held. destruct (Z.ltb_spec (Z.of_nat q) 0); [lia|]. rewrite Nat2Z.id, RY, DY by lia. unfold back. replace (Z.of_nat M - 1 - Z.of_nat q)%Z with (Z.of_nat (M - 1 - q)) by lia. ring. }
  assert (DW2 : forall m, (m < Z.of_nat M)%Z -> Rabs (de2 m) <= (E1 + D1) * A'). { intros m Hm'. destruct (Z.lt_ge_cases m 0) as [Hn|Hn]; [|rewrite <- (Z2Nat.id m), IN2 by lia; pose proof (DB (M - 1 - Z.to_nat m)%nat ltac:(lia)); unfold E1; nra]. unfold de2, held. destruct (Z.ltb_spec m 0); [|lia]. eapply Rle_trans; [apply Rabs_triang|]. rewrite Rabs_Ropp. unfold back. pose proof (BO (Z.of_nat M - 1 - m)%Z). unfold E1. nra. }
  assert (DX2 : forall m : nat, (n0 - length b <= m < M)%nat -> Rabs (de2 (Z.of_nat m)) <= D1 * A' * rho ^ (M - 1) * (/ rho) ^ m). { intros m Hm'. rewrite IN2 by lia. eapply Rle_trans; [apply DD; unfold n0 in Hm'; lia|]. right. replace (M - 1)%nat with ((M - 1 - m) + m)%nat at 2 by lia. rewrite pow_add, pow_inv. field. apply pow_nonzero. lra. }
  pose proof (H1 de2 d2 M (V2 * A') ((E1 + D1) * A') (D1 * A' * rho ^ (M - 1)) ltac:(apply Rmult_le_pos; assumption) ltac:(apply Rmult_le_pos; unfold E1; lra) ltac:(apply Rmult_le_pos; [apply Rmult_le_pos; assumption|apply pow_le; lra]) DE2 DV2 DW2 DX2 (M - 1 - (e + n))%nat ltac:(lia)) as F.
  assert (EW : d2 (Z.of_nat (M - 1 - (e + n))) = nth n w 0 - g * nth n x 0). { unfold d2, held. destruct (Z.ltb_spec (Z.of_nat (M - 1 - (e + n))) 0); [lia|]. rewrite Nat2Z.id, nth_rev' by lia. replace (length v - 1 - (M - 1 - (e + n)))%nat with (e + n)%nat by lia. rewrite <- W by exact N. unfold back. replace (Z.of_nat M - 1 - Z.of_nat (M - 1 - (e + n)))%Z with (Z.of_nat (e + n)) by lia. f_equal. f_equal. rewrite <- XM by lia. rewrite EX by lia. rewrite turned_in by lia. f_equal. lia. }
  rewrite EW in F. eapply Rle_trans; [exact F|]. rewrite !Rmult_assoc. apply Rmult_le_compat_l; [exact Q10|].
  assert (EP : rho ^ (M - 1) * (/ rho) ^ (M - 1 - (e + n)) = rho ^ (e + n)). { replace (M - 1)%nat with ((e + n) + (M - 1 - (e + n)))%nat at 1 by lia. rewrite pow_add, pow_inv. field. apply pow_nonzero. lra. }
  rewrite EP. pose proof (pow_anti rho n (e + n) R0 ltac:(lia)) as P1. pose proof (pow_anti rho (length x - 1 - n) (M - 1 - (e + n)) R0 ltac:(lia)) as P2. pose proof (pow_lt rho n ltac:(lra)) as P3. pose proof (pow_lt rho (length x - 1 - n) ltac:(lra)) as P4. set (r1 := rho ^ n) in *. set (r2 := rho ^ (length x - 1 - n)) in *. set (r3 := rho ^ (M - 1 - (e + n))) in *. set (r4 := rho ^ (e + n)) in *.
  assert (Z1 : ((E1 + D1) * A' + V2 * A') * r3 <= ((E1 + D1) * A' + V2 * A') * r2) by (apply Rmult_le_compat_l; [|exact P2]; assert (0 <= (E1 + D1) * A') by (apply Rmult_le_pos; unfold E1; lra); assert (0 <= V2 * A') by (apply Rmult_le_pos; assumption); lra).
  assert (Z2 : D1 * (A' * r4) <= D1 * (A' * r1)) by (apply Rmult_le_compat_l; [exact D10|]; apply Rmult_le_compat_l; assumption). assert (Z3 : 0 <= D1 * (A' * r2)) by (repeat apply Rmult_le_pos; lra). assert (Z4 : 0 <= (E1 + D1 + V2) * (A' * r1)) by (repeat apply Rmult_le_pos; unfold E1; lra).
  replace ((E1 + D1 + V2 + D1) * (A' * (r1 + r2))) with (((E1 + D1) * A' + V2 * A') * r2 + D1 * (A' * r1) + D1 * (A' * r2) + (E1 + D1 + V2) * (A' * r1)) by ring. lra.
Qed.
