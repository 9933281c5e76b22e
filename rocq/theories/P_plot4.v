(** sh_rms_map. *)
From Verif Require Import Base BaseFacts M_utils M_sig M_process M_sph M_grids M_decoder M_decoder2 M_process2 M_plot S_sph S_decoder S_decoder2 S_plot P_utils P_sig P_grids2 P_sph7 P_sph9 P_sph12 P_dec6 P_plot2 P_plot3.
Open Scope R_scope.

Section Blocks.
Variable block : nat.
Variables B F : mat.
Hypothesis HB : (0 < block)%nat.
Hypothesis HN : nc B = nr F.
Let g i t := rsum (nc B) (fun k => ent B i k * ent F k t).
Definition brms (T : nat) (f : nat -> R) : R := Rabs (rms (map f (seq 0 T))).
Lemma brms_eq T f : (0 < T)%nat -> brms T f = root_mean_square T f.
Proof.
  intros H. unfold brms, rms, root_mean_square. rewrite map_length, seq_length, map_map. rewrite Rabs_pos_eq by apply sqrt_pos. f_equal. f_equal.
  rewrite lsum_map_seq. apply rsum_ext. intros t _. ring.
Qed.
Lemma rms_rows_ok (M : mat) : (0 < nc M)%nat -> rms_rows M = Some (map (fun i => brms (nc M) (ent M i)) (seq 0 (nr M))).
Proof. intros H. unfold rms_rows. rewrite (proj2 (Nat.eqb_neq (nc M) 0)) by lia. reflexivity. Qed.
Lemma loop_ok fuel : forall start, (nc F - start < fuel)%nat ->
  rms_loop fuel block B F start = Ok (map (fun q => Some (map (fun i => brms block (fun j => g i (start + q * block + j)%nat)) (seq 0 (nr B)))) (seq 0 ((nc F - start) / block))).
Proof.
  induction fuel as [|fuel IH]; intros start HF; [lia|]. cbn [rms_loop]. destruct (Nat.leb_spec (start + block) (nc F)) as [H|H].
  - rewrite matmul_ok by exact HN. cbn [bind]. rewrite IH by lia. cbn [bind].
    replace ((nc F - start) / block)%nat with (S ((nc F - (start + block)) / block)).
    2: { replace (nc F - start)%nat with (1 * block + (nc F - (start + block)))%nat by lia. rewrite Nat.div_add_l by lia. reflexivity. }
    cbn [seq map]. f_equal. f_equal.
    + rewrite rms_rows_ok by (cbn [nc col_block]; lia). cbn [nc nr ent col_block]. f_equal. apply map_ext_in. intros i Hi.
      replace (Nat.min (start + block) (nc F) - start)%nat with block by lia. unfold brms. do 2 f_equal. apply map_ext. intros j. unfold g. rewrite Nat.mul_0_l, Nat.add_0_r. reflexivity.
    + rewrite <- seq_shift, map_map. apply map_ext. intros q. f_equal. apply map_ext. intros i. unfold brms. do 2 f_equal. apply map_ext. intros j. f_equal. lia.
  - rewrite Nat.div_small by lia. reflexivity.
Qed.
Lemma all_some_map {A} (f : nat -> A) l : all_some (map (fun q => Some (f q)) l) = Some (map f l).
Proof. induction l as [|a l IH]; [reflexivity|]. cbn [map all_some]. rewrite IH. reflexivity. Qed.
Lemma values_ok : (0 < nc F)%nat -> exists l, rms_values block B F = Ok (Some l) /\ length l = nr B /\
  forall i, (i < nr B)%nat -> nth i l 0 = root_mean_square (if Nat.leb (nc F) block then nc F else (nc F / block * block)%nat) (g i).
Proof.
  intros HF. unfold rms_values. destruct (Nat.ltb_spec block (nc F)) as [H|H].
  - rewrite loop_ok by lia. cbn [bind]. rewrite all_some_map. eexists. split; [reflexivity|]. rewrite map_length, seq_length. split; [reflexivity|].
    intros i Hi. rewrite nth_map_seq by exact Hi. rewrite (proj2 (Nat.leb_gt (nc F) block)) by exact H. rewrite Nat.sub_0_r. set (Q := (nc F / block)%nat).
    assert (QP : (0 < Q)%nat) by (unfold Q; apply Nat.div_str_pos; lia).
    assert (Q0 : INR Q <> 0) by (apply not_0_INR; lia). assert (B0 : INR block <> 0) by (apply not_0_INR; lia).
    unfold rms_mean, root_mean_square. f_equal. rewrite map_length, seq_length, map_map, lsum_map_seq.
    rewrite (rsum_ext Q _ (fun q => / INR block * rsum block (fun j => g i (q * block + j)%nat ^ 2))).
    + rewrite rsum_scal, rsum_prod, mult_INR. field. auto.
    + intros q _. rewrite nth_map_seq by exact Hi. rewrite brms_eq by exact HB. unfold root_mean_square. rewrite pow2_sqrt.
      * cbn [Nat.add]. unfold Rdiv. ring.
      * apply Rmult_le_pos; [apply rsum_nonneg; intros; apply pow2_ge_0|]. apply Rlt_le, Rinv_0_lt_compat, lt_0_INR. exact HB.
  - rewrite matmul_ok by exact HN. cbn [bind]. rewrite rms_rows_ok by exact HF. cbn [nc nr ent]. eexists. split; [reflexivity|]. rewrite map_length, seq_length. split; [reflexivity|].
    intros i Hi. rewrite nth_map_seq by exact Hi. rewrite (proj2 (Nat.leb_le (nc F) block)) by lia. apply brms_eq. exact HF.
Qed.
End Blocks.

(** the beam matrix *)
Lemma beam_matrix N w Y : nc Y = ((N + 1) ^ 2)%nat -> length w = (N + 1)%nat ->
  exists B, matmul Y (vdiag (repeat_per_order w)) = Ok B /\ nr B = nr Y /\ nc B = ((N + 1) ^ 2)%nat /\
    forall i n k, (n <= N)%nat -> (k < 2 * n + 1)%nat -> ent B i (n * n + k) = nth n w 0 * ent Y i (n * n + k).
Proof.
  intros C L. assert (LR : length (repeat_per_order w) = ((N + 1) ^ 2)%nat) by (rewrite rpo_length, L, sq2; reflexivity).
  rewrite matmul_ok by (unfold vdiag, mdiag; cbn [nr]; congruence). eexists. split; [reflexivity|]. unfold vdiag at 1, mdiag. cbn [nr nc ent]. split; [reflexivity|]. split; [exact LR|].
  intros i n k Hn Hk. rewrite C, <- LR. rewrite (vdiag_f (ent Y i)).
  - rewrite rpo_nth by lia. ring.
  - rewrite rpo_length, L. assert ((n + 1) * (n + 1) <= (N + 1) * (N + 1))%nat by (apply Nat.mul_le_mono; lia). lia.
Qed.
Lemma beam_product N w Y B F azi zen i : length zen = length azi -> sh_matrix N azi zen = Ok Y -> nc Y = ((N + 1) ^ 2)%nat -> (i < length azi)%nat ->
  nc B = ((N + 1) ^ 2)%nat -> (forall i n k, (n <= N)%nat -> (k < 2 * n + 1)%nat -> ent B i (n * n + k) = nth n w 0 * ent Y i (n * n + k)) ->
  forall t, rsum (nc B) (fun k => ent B i k * ent F k t) = beam N w F (nth i azi 0) (nth i zen 0) t.
Proof.
  intros L EY CY Hi CB HB t. destruct (sh_matrix_ok N azi zen L) as (Y2 & E2 & _ & _ & HY). rewrite EY in E2. injection E2 as <-.
  rewrite CB, sq2, rsum_acn. unfold beam. apply rsum_ext. intros n Hn. rewrite <- rsum_scal. apply rsum_ext. intros k Hk. rewrite HB by lia. rewrite HY by lia. ring.
Qed.

Section Map.
Variable ndesign : Z -> res (list V3).
Variables (F : mat) (N : nat) (vp : list V3) (w_n : option (list R)) (n_plot : Z).
Hypothesis HV : ndesign n_plot = Ok vp.
Hypothesis HO : forall p, In p vp -> p <> (0, 0, 0).
Hypothesis HR : nr F = ((N + 1) ^ 2)%nat.
Hypothesis HC : (0 < nc F)%nat.
Hypothesis HW : length (weights_drawn N w_n) = (N + 1)%nat.
Lemma map_ok (todb : bool) : exists azi zen v, (forall lo hi, shows_rms F N (samples_used (nc F)) (weights_drawn N w_n) todb vp (RmsFig azi zen v lo hi)) /\
  forall dflt clim, sh_rms_map ndesign dflt F todb w_n n_plot clim =
    match clim with
    | CDefault => (Ok (Some (RmsFig azi zen v (clim_low todb (fst dflt)) (snd dflt))), (clim_low todb (fst dflt), snd dflt), CDefault)
    | CList lo hi => (Ok (Some (RmsFig azi zen v (clim_low todb lo) hi)), dflt, CList (clim_low todb lo) hi)
    | CTuple (Some lo) hi => (Ok (Some (RmsFig azi zen v (Some lo) hi)), dflt, clim)
    | CTuple None hi => (Err TypeError, dflt, clim)
    end.
Proof.
  destruct (dirs_ok_angles vp HO) as (az & ze & ED & LA & LZ & HA).
  set (azi := (az ++ [PI; 0; - PI; PI; 0; - PI])%list). set (zen := (ze ++ [0; 0; 0; PI; PI; PI])%list).
  assert (LA' : length azi = (length vp + 6)%nat) by (unfold azi; rewrite app_length, LA; reflexivity).
  assert (LZ' : length zen = (length vp + 6)%nat) by (unfold zen; rewrite app_length, LZ; reflexivity).
  destruct (sh_matrix_ok N azi zen ltac:(congruence)) as (Y & EY & RY & CY & HY).
  destruct (beam_matrix N (weights_drawn N w_n) Y CY HW) as (B & EB & RB & CB & HB).
  destruct (values_ok mem_block B F ltac:(unfold mem_block; apply Nat.neq_0_lt_0, Nat.pow_nonzero; lia) ltac:(congruence) HC) as (l & EL & LL & QL).
  exists azi, zen, (map (fun x => if todb then val_db x else Fin x) l). split.
  - intros lo hi. unfold shows_rms. cbn [rf_azi rf_zen rf_rms]. rewrite map_length. split; [exact LA'|]. split; [exact LZ'|]. split; [congruence|]. split; [|split].
    + intros i Hi. unfold azi, zen. rewrite !app_nth1 by lia. apply HA. exact Hi.
    + intros i Hi. unfold zen. rewrite app_nth2 by lia. rewrite LZ. destruct (Nat.ltb_spec i (length vp + 3)).
      * destruct (i - length vp)%nat as [|[|[|q]]] eqn:E; try reflexivity. lia.
      * destruct (i - length vp)%nat as [|[|[|[|[|[|q]]]]]] eqn:E; try reflexivity; lia.
    + intros i Hi. rewrite (nth_indep _ NaN (if todb then val_db 0 else Fin 0)) by (rewrite map_length; lia). rewrite (map_nth (fun x => if todb then val_db x else Fin x)), drawn_val.
      f_equal. rewrite QL by lia. unfold root_mean_square, samples_used. fold mem_block. f_equal. f_equal. apply rsum_ext. intros t _. f_equal.
      apply (beam_product N (weights_drawn N w_n) Y B F azi zen i ltac:(congruence) EY CY ltac:(lia) CB HB).
  - intros dflt clim. unfold sh_rms_map. rewrite HR, order_of_sq, Nat2Z.id, HV. cbn [bind]. rewrite ED. cbn [orsome fst snd]. fold azi zen. rewrite EY. cbn [bind].
    change (match w_n with Some w => w | None => hypercardioid_modal_weights N end) with (weights_drawn N w_n). rewrite EB. cbn [bind]. rewrite EL. cbn [bind]. reflexivity.
Qed.
End Map.

(** ** a plane wave *)
Lemma plane_beam N S azi zen s F w a z t : 0 <= zen <= PI -> 0 <= z <= PI -> plane_wave N S azi zen s F -> length w = (N + 1)%nat -> (t < S)%nat ->
  beam N w F a z t = s t * dirac_at w (acos (dot3 (sph2cart a z 1) (sph2cart azi zen 1))).
Proof.
  intros Z1 Z2 (_ & _ & HF) LW Ht. rewrite (dirac_pattern w _ a z azi zen Z2 Z1).
  - rewrite LW. unfold beam. rewrite <- rsum_scal. apply rsum_ext. intros n Hn. rewrite <- Rmult_assoc, (Rmult_comm (s t)), Rmult_assoc. f_equal. rewrite <- rsum_scal. apply rsum_ext. intros k Hk.
    rewrite HF by lia. ring.
  - rewrite cos_acos; [reflexivity|]. apply unit_dot_bound; apply unit_dir.
Qed.

Lemma default_weights N : weights_drawn N None = hypercardioid_modal_weights N.
Proof. reflexivity. Qed.
Lemma hyper_length N : length (hypercardioid_modal_weights N) = (N + 1)%nat.
Proof. apply repeat_length. Qed.
Lemma hyper_peak N : dirac_at (hypercardioid_modal_weights N) 0 = 1.
Proof. rewrite dirac_zero. pose proof (hyper_unit N) as U. unfold unit_response in U. etransitivity; [|exact U]. apply rsum_ext. intros n _. field. apply PI_neq0. Qed.
Lemma hyper_max N d : Rabs (dirac_at (hypercardioid_modal_weights N) d) <= 1.
Proof.
  rewrite <- (hyper_peak N). apply dirac_max. intros x Hx. apply repeat_spec in Hx. subst x. pose proof PI_RGT_0. apply Rlt_le, Rdiv_lt_0_compat; [lra|]. apply lt_0_INR. rewrite sq2. nia.
Qed.
Lemma rms_scaled T f s c : (forall t, (t < T)%nat -> f t = s t * c) -> root_mean_square T f = Rabs c * root_mean_square T s.
Proof.
  intros H. unfold root_mean_square. rewrite (rsum_ext T _ (fun t => c ^ 2 * s t ^ 2)) by (intros t Ht; rewrite H by exact Ht; ring). rewrite rsum_scal. unfold Rdiv. rewrite Rmult_assoc.
  rewrite sqrt_mult_alt by apply pow2_ge_0. f_equal. replace (c ^ 2) with (Rsqr c) by (unfold Rsqr; ring). apply sqrt_Rsqr_abs.
Qed.
Lemma used_le S : (samples_used S <= S)%nat.
Proof. unfold samples_used. destruct (Nat.leb S (2 ^ 16)); [lia|]. rewrite Nat.mul_comm. apply Nat.mul_div_le. apply Nat.pow_nonzero. lia. Qed.
Lemma used_pos S : (0 < S)%nat -> (0 < samples_used S)%nat.
Proof.
  intros H. unfold samples_used. destruct (Nat.leb_spec S (2 ^ 16)); [exact H|]. assert (P : (2 ^ 16 <> 0)%nat) by (apply Nat.pow_nonzero; lia). set (b := (2 ^ 16)%nat) in *.
  assert (0 < S / b)%nat by (apply Nat.div_str_pos; lia). nia.
Qed.
Lemma used_all S : (S <= 2 ^ 16)%nat \/ Nat.divide (2 ^ 16) S -> samples_used S = S.
Proof.
  intros H. unfold samples_used. destruct (Nat.leb_spec S (2 ^ 16)); [reflexivity|]. destruct H as [H|(q & ->)]; [lia|]. rewrite Nat.div_mul by (apply Nat.pow_nonzero; lia). reflexivity.
Qed.
Lemma plane_wave_map N S azi zen s F vp fig : 0 <= zen <= PI -> (0 < S)%nat -> plane_wave N S azi zen s F ->
  shows_rms F N (samples_used S) (weights_drawn N None) false vp fig ->
  forall i, (i < length vp + 6)%nat -> exists v, nth i (rf_rms fig) NaN = Fin v /\ 0 <= v <= root_mean_square (samples_used S) s /\
    (sph2cart (nth i (rf_azi fig) 0) (nth i (rf_zen fig) 0) 1 = sph2cart azi zen 1 -> v = root_mean_square (samples_used S) s).
Proof.
  intros Z1 HS PW (_ & _ & _ & ZV & HZ & HV) i Hi. rewrite HV by exact Hi. cbn [drawn]. eexists. split; [reflexivity|].
  assert (Zi : 0 <= nth i (rf_zen fig) 0 <= PI).
  { destruct (Nat.lt_ge_cases i (length vp)) as [L|L]; [apply ZV; exact L|]. rewrite HZ by lia. pose proof PI_RGT_0. destruct (Nat.ltb i (length vp + 3)); lra. }
  rewrite default_weights. set (c := dirac_at (hypercardioid_modal_weights N) (acos (dot3 (sph2cart (nth i (rf_azi fig) 0) (nth i (rf_zen fig) 0) 1) (sph2cart azi zen 1)))).
  rewrite (rms_scaled _ _ s c).
  - pose proof (hyper_max N (acos (dot3 (sph2cart (nth i (rf_azi fig) 0) (nth i (rf_zen fig) 0) 1) (sph2cart azi zen 1)))) as M. fold c in M.
    assert (P : 0 <= root_mean_square (samples_used S) s) by apply sqrt_pos. pose proof (Rabs_pos c). split; [split; [apply Rmult_le_pos; assumption|]|].
    + rewrite <- (Rmult_1_l (root_mean_square _ s)) at 2. apply Rmult_le_compat_r; assumption.
    + intros E. unfold c. rewrite E, unit_dir, acos_1, hyper_peak, Rabs_R1. ring.
  - intros t Ht. unfold c. apply (plane_beam N S azi zen s F); auto; [apply hyper_length|]. pose proof (used_le S). lia.
Qed.

(** ** the default limits *)
Lemma default_after ndesign d F todb w n cl :
  snd (fst (sh_rms_map ndesign d F todb w n cl)) =
  match cl with CDefault => if drew ndesign (F, todb, w, n, CDefault) then (clim_low todb (fst d), snd d) else d | _ => d end.
Proof.
  unfold drew, sh_rms_map. destruct (let* vp := ndesign n in _) as [[[[azi zen] v]|]|e]; [|destruct cl; reflexivity|destruct cl; reflexivity].
  destruct cl as [|lo hi|[lo|] hi]; reflexivity.
Qed.
Lemma calls_history ndesign l : forall d, calls ndesign d l =
  (if existsb (fun c => match c with (F, todb, w, n, CDefault) => negb todb && drew ndesign c | _ => false end)%bool l
   then Some (match fst d with Some x => x | None => 0 end) else fst d, snd d).
Proof.
  induction l as [|[[[[F todb] w] n] cl] l IH]; intros d; cbn [calls existsb]; [destruct d; reflexivity|].
  rewrite default_after, IH. destruct cl as [|lo hi|lo hi]; cbn [orb]; try reflexivity.
  destruct (drew ndesign (F, todb, w, n, CDefault)); [|rewrite andb_false_r; reflexivity]. rewrite andb_true_r. cbn [fst snd]. unfold clim_low.
  destruct todb, (fst d) as [x|]; cbn [negb orb fst snd]; match goal with |- context [existsb ?f l] => destruct (existsb f l) end; reflexivity.
Qed.
