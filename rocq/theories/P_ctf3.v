(** hrirs_ctf: the whole function, special cases, invariances. *)
From Verif Require Import Base BaseFacts M_utils M_sig M_process M_sph M_grids M_parsa2 M_parsa3 M_decoder4 M_process2 S_process S_magls S_ctf P_utils P_sig P_parsa3 P_parsa9 P_sph6 P_sph7 P_proc2 P_proc5 P_magls1 P_magls2 P_magls3 P_magls4 P_magls5 X_process P_ctf1 P_ctf2.
Open Scope R_scope.

Lemma half16 t : (16 * t / 2 = 8 * t)%nat.
Proof. replace (16 * t)%nat with (8 * t * 2)%nat by lia. rewrite Nat.div_mul; lia. Qed.
(** everything after the weights *)
Definition ctf_rest (minph : list R -> list R) (mp : bool) (taps : nat) (fw : list R) (i : nat) (al ar : option (list R)) : res (option (list R)) :=
  match al, ar with
  | Some al, Some ar =>
      let* sl := frac_octave_smoothing (arr1 al) 1 true in
      let* sr := frac_octave_smoothing (arr1 ar) 1 true in
      match all_some sl, all_some sr with
      | Some sl, Some sr =>
          let s := map (fun q => 1 / 2 * fst q + 1 / 2 * snd q) (combine sl sr) in
          Ok (option_map (ctf_taps minph mp taps) (ctf_inverse fw s i))
      | _, _ => Ok None
      end
  | _, _ => Ok None
  end.
Lemma ctf_unfold pinv cond minph hr mp lims gw w lo hi i : weights_used pinv cond hr gw w -> ctf_setup hr w lims lo hi i ->
  exists fw, length fw = (8 * h_taps hr + 1)%nat /\ (forall k, (k < 8 * h_taps hr + 1)%nat -> nth k fw 0 = inversion_weight lo hi (8 * h_taps hr + 1) k) /\
    hrirs_ctf pinv cond minph hr mp lims gw = ctf_rest minph mp (h_taps hr) fw i
      (ctf_avg w (map (fun x => rfft_n x (16 * h_taps hr)) (h_left hr)) (8 * h_taps hr + 1)) (ctf_avg w (map (fun x => rfft_n x (16 * h_taps hr)) (h_right hr)) (8 * h_taps hr + 1)).
Proof.
  intros W (F & T & LW & LL & LR & BL & BH & BI).
  assert (F' : IZR (h_fs hr) <> 0) by (intros E; apply F; apply eq_IZR; exact E). assert (N0 : (16 * h_taps hr)%nat <> 0%nat) by lia.
  destruct (ctf_weights_ok _ _ _ _ _ F' N0 BL BH) as (fw & EF & Lf & Nf). rewrite half16 in *.
  exists fw. split; [exact Lf|]. split; [intros k Hk; apply Nf; lia|].
  unfold hrirs_ctf.
  assert (EW : match gw with Some w => Ok w | None => calculate_grid_weights pinv cond (h_azi hr) (h_zen hr) (Some 5%Z) end = Ok w) by (destruct W as [->|[-> E]]; [reflexivity|exact E]).
  rewrite EW. cbn [bind]. rewrite LW, Nat.eqb_refl. cbn [assert_ bind].
  rewrite (proj2 (Nat.eqb_neq (16 * h_taps hr) 0)) by exact N0. rewrite (proj2 (Z.eqb_neq (h_fs hr) 0)) by exact F. rewrite EF. cbn [bind].
  rewrite (nearest_at _ _ _ _ F' N0 BI). cbn [bind]. rewrite half16. reflexivity.
Qed.
Definition mean2 (u v : list R) : list R := map (fun q => 1 / 2 * fst q + 1 / 2 * snd q) (combine u v).
Lemma nth_mean2 u v k : length u = length v -> (k < length u)%nat -> nth k (mean2 u v) 0 = (nth k u 0 + nth k v 0) / 2.
Proof. intros L K. unfold mean2. rewrite (nth_map_in _ _ k 0 (0, 0)) by (rewrite combine_length; lia). rewrite combine_nth by exact L. cbn [fst snd]. field. Qed.
Lemma length_mean2 u v : length u = length v -> length (mean2 u v) = length u.
Proof. intros L. unfold mean2. rewrite map_length, combine_length. lia. Qed.
Lemma octave_ext wt n N a b idx v : (forall k, (k < N)%nat -> a k = b k) -> octave_mean wt n N a idx v -> octave_mean wt n N b idx v.
Proof. intros E (lo & M & HM & HL & W & ->). exists lo, M. do 3 (split; [assumption|]). f_equal. apply rsum_ext. intros j Hj. rewrite E by lia. reflexivity. Qed.
(** the smoothed common level, when no energy is negative *)
Lemma rest_ok minph mp taps fw i w xl xr n : n = (16 * taps)%nat -> (1 <= taps)%nat -> length w = length xl -> length w = length xr ->
  (forall k, (k <= n / 2)%nat -> 0 <= energy w xl n k) -> (forall k, (k <= n / 2)%nat -> 0 <= energy w xr n k) ->
  exists s, length s = (8 * taps + 1)%nat /\ common_level w xl xr n (fun k => nth k s 0) /\
    ctf_rest minph mp taps fw i (ctf_avg w (map (fun x => rfft_n x n) xl) (8 * taps + 1)) (ctf_avg w (map (fun x => rfft_n x n) xr) (8 * taps + 1))
    = Ok (option_map (ctf_taps minph mp taps) (ctf_inverse fw s i)).
Proof.
  intros En HT L1 L2 P1 P2. assert (E2 : (n / 2 = 8 * taps)%nat) by (subst n; apply half16). pose proof (avg_ok w xl n L1 ltac:(lia) P1) as A1. pose proof (avg_ok w xr n L2 ltac:(lia) P2) as A2. rewrite E2 in A1, A2. rewrite A1, A2. unfold ctf_rest.
  destruct (octave_ok (map (level w xl n) (seq 0 (8 * taps + 1))) 1 true ltac:(lra)) as (ol & El & Ll & Vl).
  destruct (octave_ok (map (level w xr n) (seq 0 (8 * taps + 1))) 1 true ltac:(lra)) as (o_r & Er & Lr & Vr).
  rewrite El, Er. cbn [bind]. rewrite !all_some_map. rewrite map_length, seq_length in *. exists (mean2 ol o_r).
  split; [rewrite length_mean2 by lia; exact Ll|]. split; [|reflexivity].
  intros k Hk. rewrite E2 in *. exists (nth k ol 0), (nth k o_r 0). split; [|split].
  - apply (octave_ext _ _ _ (fun k => nth k (map (level w xl n) (seq 0 (8 * taps + 1))) 0)); [intros j Hj; apply nth_map_seq'; exact Hj|apply Vl; lia].
  - apply (octave_ext _ _ _ (fun k => nth k (map (level w xr n) (seq 0 (8 * taps + 1))) 0)); [intros j Hj; apply nth_map_seq'; exact Hj|apply Vr; lia].
  - apply nth_mean2; lia.
Qed.
Lemma in_own_window k : in_window (half_step 1) k k.
Proof.
  destruct (smoothing_final (repeat 0 (S k)) 1 true ltac:(lra)) as (o & _ & _ & V). rewrite repeat_length in V. apply (V k). lia.
Qed.
Lemma level_nonneg w x n k : 0 <= level w x n k.
Proof. unfold level. pose proof (sqrt_pos (energy w x n k)). pose proof PI_RGT_0. apply Rmult_le_pos; [lra|left; apply Rinv_0_lt_compat; lra]. Qed.
Lemma level_pos w x n k : 0 < energy w x n k -> 0 < level w x n k.
Proof. intros H. unfold level. pose proof (sqrt_lt_R0 _ H). pose proof PI_RGT_0. apply Rdiv_lt_0_compat; lra. Qed.
Lemma common_pos w xl xr n s : audible w xl xr n -> common_level w xl xr n s -> forall k, (k <= n / 2)%nat -> 0 < s k.
Proof.
  intros A C k Hk. destruct (C k Hk) as (a & b & Oa & Ob & ->). destruct (A k Hk) as (E1 & E2 & E3).
  pose proof (octave_nonneg _ _ _ _ _ _ (fun j _ => level_nonneg w xl n j) Oa). pose proof (octave_nonneg _ _ _ _ _ _ (fun j _ => level_nonneg w xr n j) Ob).
  destruct (Rle_lt_or_eq_dec _ _ E1) as [Q|Q].
  - pose proof (octave_pos _ _ (n / 2 + 1) _ k _ ltac:(lia) (in_own_window k) (fun j _ => level_nonneg w xl n j) (level_pos _ _ _ _ Q) Oa). lra.
  - assert (Q2 : 0 < energy w xr n k) by lra. pose proof (octave_pos _ _ (n / 2 + 1) _ k _ ltac:(lia) (in_own_window k) (fun j _ => level_nonneg w xr n j) (level_pos _ _ _ _ Q2) Ob). lra.
Qed.
Lemma ctf_main pinv cond minph hr (mp : bool) lims gw w lo hi i : weights_used pinv cond hr gw w -> ctf_setup hr w lims lo hi i ->
  audible w (h_left hr) (h_right hr) (16 * h_taps hr) -> (5 <= i)%nat ->
  exists s e, hrirs_ctf pinv cond minph hr mp lims gw = Ok (Some e) /\ common_level w (h_left hr) (h_right hr) (16 * h_taps hr) s /\
    (forall k, (k <= 8 * h_taps hr)%nat -> 0 < s k) /\
    if mp then minimum_eq minph (h_taps hr) (correction lo hi (8 * h_taps hr + 1) i s) e else linear_eq (h_taps hr) (correction lo hi (8 * h_taps hr + 1) i s) e.
Proof.
  intros W St A Hi. destruct (ctf_unfold pinv cond minph hr mp lims gw w lo hi i W St) as (fw & Lf & Nf & ->).
  destruct St as (F & T & LW & LL & LR & BL & BH & BI). destruct BI as [BI _]. rewrite half16 in BI.
  destruct (rest_ok minph mp (h_taps hr) fw i w (h_left hr) (h_right hr) (16 * h_taps hr) eq_refl ltac:(lia) ltac:(lia) ltac:(lia) (fun k Hk => proj1 (A k Hk)) (fun k Hk => proj1 (proj2 (A k Hk)))) as (s & Ls & C & ->).
  pose proof (common_pos _ _ _ _ _ A C) as P. rewrite half16 in P.
  destruct (inverse_ok (8 * h_taps hr + 1) lo hi i fw s ltac:(lia) Lf Ls Nf (fun k Hk => P k ltac:(lia))) as (inv & -> & Li & Ni).
  exists (fun k => nth k s 0), (ctf_taps minph mp (h_taps hr) inv). split; [reflexivity|]. split; [exact C|]. split; [exact P|].
  apply taps_ok; [lia|exact Li|exact Ni].
Qed.
(** ** errors and non-finite results *)
Lemma ctf_wrong_weights pinv cond minph hr mp lims gw w : weights_used pinv cond hr gw w -> length w <> num_grid_points hr ->
  hrirs_ctf pinv cond minph hr mp lims gw = Err AssertionError.
Proof.
  intros W N. unfold hrirs_ctf.
  assert (EW : match gw with Some w => Ok w | None => calculate_grid_weights pinv cond (h_azi hr) (h_zen hr) (Some 5%Z) end = Ok w) by (destruct W as [->|[-> E]]; [reflexivity|exact E]).
  rewrite EW. cbn [bind]. rewrite (proj2 (Nat.eqb_neq _ _) N). reflexivity.
Qed.
Lemma ctf_no_rate pinv cond minph hr mp lims gw w : weights_used pinv cond hr gw w -> length w = num_grid_points hr -> (0 < h_taps hr)%nat -> h_fs hr = 0%Z ->
  hrirs_ctf pinv cond minph hr mp lims gw = Err ZeroDivisionError.
Proof.
  intros W L T F. unfold hrirs_ctf.
  assert (EW : match gw with Some w => Ok w | None => calculate_grid_weights pinv cond (h_azi hr) (h_zen hr) (Some 5%Z) end = Ok w) by (destruct W as [->|[-> E]]; [reflexivity|exact E]).
  rewrite EW. cbn [bind]. rewrite L, Nat.eqb_refl. cbn [assert_ bind]. rewrite (proj2 (Nat.eqb_neq (16 * h_taps hr) 0)) by lia. rewrite F. reflexivity.
Qed.
Lemma ctf_low pinv cond minph hr mp lims gw w lo hi i : weights_used pinv cond hr gw w -> ctf_setup hr w lims lo hi i -> (i < 5)%nat -> (2 <= h_taps hr)%nat ->
  hrirs_ctf pinv cond minph hr mp lims gw = Ok None.
Proof.
  intros W St Hi H2. destruct (ctf_unfold pinv cond minph hr mp lims gw w lo hi i W St) as (fw & Lf & Nf & ->).
  unfold ctf_rest, ctf_avg.
  destruct (all_some (map (ctf_avg_at w (map _ (h_left hr))) _)) as [al|] eqn:EA; [|reflexivity]. destruct (all_some (map (ctf_avg_at w (map _ (h_right hr))) _)) as [ar|] eqn:EB; [|reflexivity].
  assert (LA : forall {A} (l : list (option A)) o, all_some l = Some o -> length o = length l).
  { clear. intros A l. induction l as [|[x|] l IH]; intros o E; cbn [all_some] in E; try discriminate; [injection E as <-; reflexivity|].
    destruct (all_some l) as [o'|]; [|discriminate]. cbn [option_map] in E. injection E as <-. cbn [length]. rewrite (IH o' eq_refl). reflexivity. }
  apply LA in EA. apply LA in EB. rewrite map_length, seq_length in EA, EB.
  destruct (octave_ok al 1 true ltac:(lra)) as (ol & -> & Ll & _). destruct (octave_ok ar 1 true ltac:(lra)) as (o_r & -> & Lr & _). cbn [bind]. rewrite !all_some_map.
  fold (mean2 ol o_r). unfold ctf_inverse. rewrite length_slice, length_mean2 by lia.
  replace (norm_idx (length ol) (Z.of_nat i + 5) - norm_idx (length ol) (Z.of_nat i - 5))%nat with 0%nat; [reflexivity|].
  unfold norm_idx. destruct (Z.ltb_spec (Z.of_nat i + 5) 0), (Z.ltb_spec (Z.of_nat i - 5) 0); lia.
Qed.
Lemma ctf_negative pinv cond minph hr mp lims gw w lo hi i k : weights_used pinv cond hr gw w -> ctf_setup hr w lims lo hi i -> (k <= 8 * h_taps hr)%nat ->
  energy w (h_left hr) (16 * h_taps hr) k < 0 \/ energy w (h_right hr) (16 * h_taps hr) k < 0 -> hrirs_ctf pinv cond minph hr mp lims gw = Ok None.
Proof.
  intros W St Hk D. destruct (ctf_unfold pinv cond minph hr mp lims gw w lo hi i W St) as (fw & Lf & Nf & ->). destruct St as (F & T & LW & LL & LR & _).
  unfold ctf_rest. rewrite <- !half16. destruct D as [D|D].
  - rewrite (avg_neg w (h_left hr) _ k) by (rewrite ?half16; lia || lra). reflexivity.
  - rewrite (avg_neg w (h_right hr) _ k) by (rewrite ?half16; lia || lra). destruct (ctf_avg _ _ _); reflexivity.
Qed.
Lemma ctf_silent pinv cond minph hr mp lims gw w lo hi i : weights_used pinv cond hr gw w -> ctf_setup hr w lims lo hi i ->
  (forall k, (k <= 8 * h_taps hr)%nat -> energy w (h_left hr) (16 * h_taps hr) k = 0 /\ energy w (h_right hr) (16 * h_taps hr) k = 0) -> hrirs_ctf pinv cond minph hr mp lims gw = Ok None.
Proof.
  intros W St Z0. destruct (ctf_unfold pinv cond minph hr mp lims gw w lo hi i W St) as (fw & Lf & Nf & ->). destruct St as (F & T & LW & LL & LR & _).
  destruct (rest_ok minph mp (h_taps hr) fw i w (h_left hr) (h_right hr) (16 * h_taps hr) eq_refl ltac:(lia) ltac:(lia) ltac:(lia)
     (fun k Hk => Req_le_sym _ _ (proj1 (Z0 k (eq_ind _ (fun m => (k <= m)%nat) Hk _ (half16 (h_taps hr)))))) (fun k Hk => Req_le_sym _ _ (proj2 (Z0 k (eq_ind _ (fun m => (k <= m)%nat) Hk _ (half16 (h_taps hr))))))) as (s & Ls & C & ->).
  assert (S0 : nth 0 s 0 = 0).
  { destruct (C 0%nat ltac:(lia)) as (a & b & Oa & Ob & ->). rewrite half16 in *.
    rewrite (octave_const _ _ _ _ 0 _ _) with (2 := Oa) by (intros k Hk; unfold level; rewrite (proj1 (Z0 k ltac:(lia))), sqrt_0; field; apply PI_neq0).
    rewrite (octave_const _ _ _ _ 0 _ _) with (2 := Ob) by (intros k Hk; unfold level; rewrite (proj2 (Z0 k ltac:(lia))), sqrt_0; field; apply PI_neq0). lra. }
  unfold ctf_inverse. destruct (Nat.eqb _ 0); [reflexivity|]. destruct (Reqb _ 0); [reflexivity|].
  assert (EX : existsb (fun x => Reqb x 0) s = true). { apply existsb_exists. exists 0. split; [rewrite <- S0; apply nth_In; lia|]. unfold Reqb. destruct (Req_EM_T 0 0); congruence. }
  rewrite EX. reflexivity.
Qed.
