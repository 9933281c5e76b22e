(** magls_bin: final forms. *)
From Verif Require Import Base BaseFacts M_utils M_sig M_process M_sph M_parsa2 M_parsa3 M_decoder4 S_grids S_lsq S_magls P_utils P_sig P_lsq P_magls1 P_magls2 P_magls3 P_magls4.
Open Scope R_scope.

Lemma magls_ok pinv hr N f_trans Y n kc cont hf : magls_setup pinv hr N f_trans Y n kc -> cont_ok cont kc -> (32 <= h_taps hr)%nat ->
  exists l r, magls_bin pinv hr N f_trans cont hf = Ok (l, r) /\
    magls_result Y (h_left hr) n (h_taps hr) kc cont (2 * PI * fst hf / INR n) l /\
    magls_result Y (h_right hr) n (h_taps hr) kc cont (2 * PI * snd hf / INR n) r.
Proof. intros (A & B & C & D & E & F & G & I) CO T. apply bin_ok; assumption. Qed.
Lemma magls_too_few pinv hr N f_trans Y n kc cont hf : magls_setup pinv hr N f_trans Y n kc -> (kc <= 5)%nat -> cont = Avg \/ cont = Angle ->
  magls_bin pinv hr N f_trans cont hf = Err AssertionError.
Proof. intros (A & B & C & D & E & F & G & I) K CO. apply (bin_assert pinv hr N f_trans Y n kc); assumption. Qed.
Lemma magls_unknown pinv hr N f_trans Y n kc hf : magls_setup pinv hr N f_trans Y n kc -> magls_bin pinv hr N f_trans OtherCont hf = Err ValueError.
Proof. intros (A & B & C & D & E & F & G & I). apply (bin_other pinv hr N f_trans Y n kc); assumption. Qed.
Lemma magls_short pinv hr N f_trans Y n kc cont hf : magls_setup pinv hr N f_trans Y n kc -> cont_ok cont kc -> (h_taps hr < 32)%nat ->
  magls_bin pinv hr N f_trans cont hf = Err ValueError.
Proof. intros (A & B & C & D & E & F & G & I) CO T. apply (bin_short pinv hr N f_trans Y n kc); assumption. Qed.
Lemma nearest_zero n fs : 0 < fs -> (0 < n)%nat -> nearest_bin n fs 0 0.
Proof.
  intros F N. assert (0 < INR n) by (apply lt_0_INR; exact N). split; [lia|]. split; [|intros; lia]. intros k _. simpl (INR 0).
  replace (0 * fs / INR n - 0) with 0 by (field; lra). rewrite Rabs_R0. apply Rabs_pos.
Qed.
(** order 0 with the default transition frequency *)
Lemma magls_order_zero pinv hr Y cont hf : (0 < h_fs hr)%Z -> length (h_zen hr) = length (h_azi hr) -> length (h_left hr) = length (h_azi hr) -> length (h_right hr) = length (h_azi hr) ->
  sh_matrix 0 (h_azi hr) (h_zen hr) = Ok Y -> penrose Y (pinv Y) -> cont = Avg \/ cont = Angle -> magls_bin pinv hr 0 None cont hf = Err AssertionError.
Proof.
  intros FS LZ LL LR EY HP CO. apply (magls_too_few pinv hr 0 None Y (Nat.max 1024 (h_taps hr)) 0); [|lia|exact CO].
  split; [lia|]. repeat (split; [assumption||reflexivity|]). unfold cuton. simpl (INR 0). rewrite Rmult_0_l. apply nearest_zero; [apply IZR_lt; exact FS|lia].
Qed.
Lemma result_exact Y x n taps kc cont s rows : right_invertible Y -> magls_result Y x n taps kc cont s rows -> magls_exact Y x n taps kc rows.
Proof.
  intros RI (c & MS & FI). exists c. split; [exact FI|]. intros k g Hk Hg. exact (spectrum_exact Y _ kc _ cont s c RI MS k g Hk Hg).
Qed.
Lemma magls_magnitude pinv hr N f_trans Y n kc cont hf : magls_setup pinv hr N f_trans Y n kc -> cont_ok cont kc -> (32 <= h_taps hr)%nat -> right_invertible Y ->
  exists l r, magls_bin pinv hr N f_trans cont hf = Ok (l, r) /\ magls_exact Y (h_left hr) n (h_taps hr) kc l /\ magls_exact Y (h_right hr) n (h_taps hr) kc r.
Proof.
  intros S' CO T RI. destruct (magls_ok pinv hr N f_trans Y n kc cont hf S' CO T) as (l & r & E & A & B). exists l, r. split; [exact E|].
  split; eapply result_exact; eassumption.
Qed.
(** odd lengths lose a sample *)
Lemma odd_half t : Nat.odd t = true -> (2 * (t / 2) = t - 1)%nat.
Proof. intros O. apply Nat.odd_spec in O. destruct O as (m & ->). replace (2 * m + 1)%nat with (1 + m * 2)%nat by lia. rewrite Nat.div_add by lia. change (1 / 2)%nat with 0%nat. lia. Qed.
Lemma magls_odd pinv hr N f_trans Y n kc cont hf : magls_setup pinv hr N f_trans Y n kc -> cont_ok cont kc -> (1024 < h_taps hr)%nat -> Nat.odd (h_taps hr) = true ->
  exists l r, magls_bin pinv hr N f_trans cont hf = Ok (l, r) /\
    forall j, (j < (N + 1) ^ 2)%nat -> length (nth j l []) = (h_taps hr - 1)%nat /\ length (nth j r []) = (h_taps hr - 1)%nat.
Proof.
  intros S' CO T O. destruct (magls_ok pinv hr N f_trans Y n kc cont hf S' CO ltac:(lia)) as (l & r & E & (c & _ & _ & A) & (c' & _ & _ & B)). exists l, r. split; [exact E|].
  destruct S' as (_ & LZ & _ & _ & EY & _ & EN & _). destruct (Y_dims hr N Y EY LZ) as (_ & NC). rewrite NC in *.
  assert (M : Nat.min (h_taps hr) (2 * (n / 2)) = (h_taps hr - 1)%nat) by (rewrite EN, Nat.max_r by lia; rewrite odd_half by exact O; lia).
  intros j Hj. rewrite M in *. split; [apply A|apply B]; exact Hj.
Qed.

(** ** a common delay *)
Lemma pinv_cfit Y P t : penrose Y P -> cfit Y t (fun j => (rsum (nr Y) (fun g => ent P j g * fst (t g)), rsum (nr Y) (fun g => ent P j g * snd (t g)))).
Proof. intros HP. split; cbn [fst snd]; apply (pinv_fit Y P); exact HP. Qed.
Lemma result_plain Y P x n taps kc cont s rows theta a : penrose Y P -> (1 <= nc Y)%nat -> Nat.even n = true -> (2 <= n)%nat -> (taps <= n)%nat -> (1 <= kc <= n / 2)%nat ->
  common_delay Y x n theta a -> continues cont theta s -> magls_result Y x n taps kc cont s rows -> plain_fit Y x taps rows.
Proof.
  intros HP N1 EV N2 TN KC (T & CD) CN (c & MS & LR & FI). apply Nat.even_spec in EV. destruct EV as (m & EM).
  assert (M2 : (n / 2 = m)%nat) by (rewrite EM, Nat.mul_comm, Nat.div_mul by lia; reflexivity). rewrite M2 in *.
  assert (MT : Nat.min taps (2 * m) = taps) by lia. rewrite MT in *.
  set (r := fun k j => rsum (nr Y) (fun g => ent P j g * a g k)).
  assert (RF : forall k, best_fit Y (fun g => a g k) (r k)) by (intros k; apply (pinv_fit Y P (fun g => a g k) HP)).
  assert (FIT : forall k, (k < m + 1)%nat -> cfit Y (fun g => dft n (nth g x []) k) (c k)).
  { intros k Hk. apply (line_fit Y (fun g => dft n (nth g x [])) kc (m + 1) cont s theta a c r); try assumption; try lia.
    - intros g q Hg Hq. apply (CD q ltac:(lia)). exact Hg.
    - intros g q Hg Hq. apply (CD q ltac:(lia)). exact Hg.
    - intros q Hq. apply RF.
    - intros q Hq. apply (CD q ltac:(lia)). apply RF.
    - intros q g Hq Hg. apply (CD q ltac:(lia)); [apply RF|exact Hg]. }
  split; [exact LR|]. split; [intros j Hj; apply FI; exact Hj|].
  intros t Ht. exists (fun j => rsum (nr Y) (fun g => ent P j g * nth t (nth g x []) 0)). split; [apply (pinv_fit Y P (fun g => nth t (nth g x []) 0) HP)|].
  intros j Hj. destruct (FI j Hj) as (_ & V). rewrite V by exact Ht. f_equal.
  rewrite (synth_ext m _ (fun k => (rsum (nr Y) (fun g => ent P j g * fst (dft n (nth g x []) k)), rsum (nr Y) (fun g => ent P j g * snd (dft n (nth g x []) k))))); [|lia|].
  - rewrite (synth_lin (nr Y) (fun g => ent P j g) (fun g => dft n (nth g x []))). apply rsum_ext. intros g Hg. f_equal. rewrite EM. apply synth_dft; lia.
  - intros k Hk. exact (cfit_unique Y _ _ _ (FIT k ltac:(lia)) (pinv_cfit Y P _ HP) j Hj).
Qed.
Lemma magls_common_delay pinv hr N f_trans Y n kc cont hf thl al thr ar : magls_setup pinv hr N f_trans Y n kc -> cont_ok cont kc -> (1 <= kc)%nat -> (32 <= h_taps hr)%nat -> Nat.even n = true ->
  common_delay Y (h_left hr) n thl al -> continues cont thl (2 * PI * fst hf / INR n) ->
  common_delay Y (h_right hr) n thr ar -> continues cont thr (2 * PI * snd hf / INR n) ->
  exists l r, magls_bin pinv hr N f_trans cont hf = Ok (l, r) /\ plain_fit Y (h_left hr) (h_taps hr) l /\ plain_fit Y (h_right hr) (h_taps hr) r.
Proof.
  intros S' CO K1 T EV CL NL CR NR. destruct (magls_ok pinv hr N f_trans Y n kc cont hf S' CO T) as (l & r & E & A & B). exists l, r. split; [exact E|].
  destruct S' as (_ & LZ & _ & _ & EY & HP & EN & (NB & _)). assert (N1 : (1 <= nc Y)%nat) by (rewrite (proj2 (Y_dims hr N Y EY LZ)); assert (0 < (N + 1) ^ 2)%nat by (cbn [Nat.pow]; lia); lia).
  split; [apply (result_plain Y (pinv Y) _ n (h_taps hr) kc cont _ l thl al HP N1 EV ltac:(lia) ltac:(lia) (conj K1 NB) CL NL A)|apply (result_plain Y (pinv Y) _ n (h_taps hr) kc cont _ r thr ar HP N1 EV ltac:(lia) ltac:(lia) (conj K1 NB) CR NR B)].
Qed.
(** ** pulses *)
Lemma dft_pulse n x d w k : (d < n)%nat -> (forall t, nth t x 0 = if Nat.eqb t d then w else 0) -> dft n x k = polar w (- (2 * PI * INR d / INR n) * INR k).
Proof.
  intros Hd E. assert (N0 : INR n <> 0) by (apply not_0_INR; lia). unfold dft, polar. 
  rewrite (rsum_single n d), (rsum_single n d (fun j => nth j x 0 * sin _)); try exact Hd.
  - rewrite E, Nat.eqb_refl, mult_INR.
    replace (- (2 * PI * INR d / INR n) * INR k) with (- (2 * PI * (INR d * INR k) / INR n)) by (field; exact N0). rewrite cos_neg, sin_neg. f_equal. ring.
  - intros j _ NE. rewrite E, (proj2 (Nat.eqb_neq j d)) by auto. ring.
  - intros j _ NE. rewrite E, (proj2 (Nat.eqb_neq j d)) by auto. ring.
Qed.
Lemma pulses_delay Y x n d w b : (2 * d < n)%nat -> pulses x (nr Y) d w -> (forall g, (g < nr Y)%nat -> 0 <= w g) -> best_fit Y w b -> 0 < b 0%nat -> (0 < nc Y)%nat ->
  (forall g, (g < nr Y)%nat -> 0 < rsum (nc Y) (fun j => ent Y g j * b j)) -> common_delay Y x n (- (2 * PI * INR d / INR n)) (fun g _ => w g).
Proof.
  intros Hd PU W0 BF B0 NC BG. pose proof PI_RGT_0 as HP. assert (N0 : 0 < INR n) by (apply lt_0_INR; lia). pose proof (pos_INR d) as D0.
  assert (DN : 2 * INR d < INR n) by (replace 2 with (INR 2) by (simpl; ring); rewrite <- mult_INR; apply lt_INR; exact Hd). split.
  - rewrite Rabs_Ropp, Rabs_pos_eq by (apply Rmult_le_pos; [nra|apply Rlt_le, Rinv_0_lt_compat; exact N0]).
    apply Rmult_lt_reg_r with (INR n); [exact N0|]. replace (2 * PI * INR d / INR n * INR n) with (PI * (2 * INR d)) by (field; lra). apply Rmult_lt_compat_l; assumption.
  - intros k Hk. split.
    + intros g Hg. split; [apply W0; exact Hg|]. apply dft_pulse; [lia|]. intros t. apply PU. exact Hg.
    + intros b' B'. assert (Q : forall j, (j < nc Y)%nat -> b' j = b j) by (intros j Hj; exact (best_fit_unique Y w b' b B' BF j Hj)). split; [rewrite Q by exact NC; exact B0|].
      intros g Hg. rewrite (rsum_ext _ _ (fun j => ent Y g j * b j)) by (intros j Hj; rewrite Q by exact Hj; reflexivity). apply BG. exact Hg.
Qed.
Lemma best_fit_zero Y h : best_fit Y (fun _ => 0) h -> forall j, (j < nc Y)%nat -> h j = 0.
Proof.
  intros B j Hj. refine (best_fit_unique Y _ h (fun _ => 0) B _ j Hj). intros c'. 
  assert (M0 : misfit Y (fun _ => 0) (fun _ => 0) = 0) by (unfold misfit; apply rsum_0; intros g _; rewrite rsum_0; [ring|intros; ring]).
  assert (S0 : size2 (nc Y) (fun _ => 0) = 0) by (unfold size2; apply rsum_0; intros; ring).
  rewrite M0, S0. split; [unfold misfit|intros _; unfold size2]; apply rsum_nonneg; intros; apply pow2_ge_0.
Qed.
Lemma plain_pulse Y x taps d w b rows : pulses x (nr Y) d w -> best_fit Y w b -> plain_fit Y x taps rows -> pulse_rows Y taps d b rows.
Proof.
  intros PU BF (A & B & C). split; [exact A|]. intros j Hj. split; [apply B; exact Hj|]. intros t Ht. destruct (C t Ht) as (h & HF & V). rewrite V by exact Hj.
  destruct (Nat.eqb_spec t d) as [->|NE].
  - f_equal. refine (best_fit_unique Y w h b _ BF j Hj). eapply best_fit_ext; [| |exact HF]; [|reflexivity]. intros g Hg. cbn beta. rewrite PU by exact Hg. rewrite Nat.eqb_refl. reflexivity.
  - rewrite (best_fit_zero Y h); [ring| |exact Hj]. eapply best_fit_ext; [| |exact HF]; [|reflexivity]. intros g Hg. cbn beta. rewrite PU by exact Hg. rewrite (proj2 (Nat.eqb_neq t d)) by exact NE. reflexivity.
Qed.

Lemma magls_pulses pinv hr N f_trans Y n kc cont hf dl wl bl dr wr br : magls_setup pinv hr N f_trans Y n kc -> cont_ok cont kc -> (32 <= h_taps hr)%nat -> Nat.even n = true ->
  (cont = Avg \/ cont = Angle) /\ hf = (0, 0) \/ cont = Delay /\ hf = (INR dl, INR dr) /\ (1 <= kc)%nat ->
  (2 * dl < n)%nat -> (2 * dr < n)%nat -> pulses (h_left hr) (nr Y) dl wl -> pulses (h_right hr) (nr Y) dr wr ->
  (forall g, (g < nr Y)%nat -> 0 <= wl g /\ 0 <= wr g) -> best_fit Y wl bl -> best_fit Y wr br -> 0 < bl 0%nat -> 0 < br 0%nat ->
  (forall g, (g < nr Y)%nat -> 0 < rsum (nc Y) (fun j => ent Y g j * bl j) /\ 0 < rsum (nc Y) (fun j => ent Y g j * br j)) ->
  exists l r, magls_bin pinv hr N f_trans cont hf = Ok (l, r) /\ pulse_rows Y (h_taps hr) dl bl l /\ pulse_rows Y (h_taps hr) dr br r.
Proof.
  intros S' CO T EV CN DL DR PL PR W BL BR BL0 BR0 BG.
  assert (N1 : (0 < nc Y)%nat).
  { destruct S' as (_ & LZ & _ & _ & EY & _). rewrite (proj2 (Y_dims hr N Y EY LZ)). cbn [Nat.pow]. lia. }
  assert (K1 : (1 <= kc)%nat) by (destruct CN as [[[->| ->] _]|(_ & _ & K)]; [cbn [cont_ok] in CO; lia|cbn [cont_ok] in CO; lia|exact K]).
  assert (CL : continues cont (- (2 * PI * INR dl / INR n)) (2 * PI * fst hf / INR n) /\ continues cont (- (2 * PI * INR dr / INR n)) (2 * PI * snd hf / INR n)).
  { destruct CN as [[[->| ->] ->]|(-> & -> & _)]; cbn [continues fst snd]; split; unfold Rdiv; ring. }
  destruct (magls_common_delay pinv hr N f_trans Y n kc cont hf _ _ _ _ S' CO K1 T EV
     (pulses_delay Y _ n dl wl bl DL PL (fun g Hg => proj1 (W g Hg)) BL BL0 N1 (fun g Hg => proj1 (BG g Hg))) (proj1 CL)
     (pulses_delay Y _ n dr wr br DR PR (fun g Hg => proj2 (W g Hg)) BR BR0 N1 (fun g Hg => proj2 (BG g Hg))) (proj2 CL)) as (l & r & E & A & B).
  exists l, r. split; [exact E|]. split; [apply (plain_pulse Y (h_left hr) _ dl wl)|apply (plain_pulse Y (h_right hr) _ dr wr)]; assumption.
Qed.
