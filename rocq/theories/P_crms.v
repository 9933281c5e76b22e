(** sh_rms_map with complex signals. *)
From Coq Require Import Lra Lia Ring.
From Verif Require Import Base BaseFacts M_utils S_utils P_utils M_sig P_sig M_process M_process2 M_sph0 M_sph M_grids M_decoder M_decoder2 M_plot S_linalg S_sph S_decoder S_decoder2 S_plot
  P_grids2 P_sph1 P_sph2 P_sph3 P_sph4 P_sph5 P_sph6 P_sph7 P_sph8 P_sph9 P_sph10 P_sph11 P_sph12 P_sph13 P_dec6 P_plot2 P_plot3 P_plot4 M_parsa3 M_process3 S_zp P_cplx M_io M_io2 M_io3 M_sph3 S_sph3 M_misc P_csph1 P_csph2 P_csph3 M_crms S_crms.
Open Scope R_scope.
Add Ring C2ring_crms : cring.

Lemma cabs2_norm z : cabs2 z = cnorm2 z.
Proof. unfold cabs2, cnorm2. ring. Qed.
Lemma cnorm2_pos z : 0 <= cnorm2 z.
Proof. unfold cnorm2. pose proof (pow2_ge_0 (fst z)). pose proof (pow2_ge_0 (snd z)). lra. Qed.
Lemma cmean_pos T f : 0 <= rsum T (fun t => cnorm2 (f t)) / INR T.
Proof.
  destruct T as [|T]; [unfold rsum; cbn; unfold Rdiv; lra|]. apply Rmult_le_pos; [apply rsum_nonneg; intros; apply cnorm2_pos|]. apply Rlt_le, Rinv_0_lt_compat, lt_0_INR. lia.
Qed.
Section Blocks.
Variable block : nat.
Variables B F : cmat.
Hypothesis HB : (0 < block)%nat.
Hypothesis HN : cnc B = cnr F.
Let g i t := csum (cnc B) (fun k => cmul (cent B i k) (cent F k t)).
Lemma crms_rows_ok (M : cmat) : (0 < cnc M)%nat -> crms_rows M = Some (map (fun i => croot_mean_square (cnc M) (cent M i)) (seq 0 (cnr M))).
Proof.
  intros H. unfold crms_rows. rewrite (proj2 (Nat.eqb_neq (cnc M) 0)) by lia. f_equal. unfold rms_axis, lanes. rewrite map_map. apply map_ext. intros i.
  unfold cabs, lane. rewrite cabs2_norm. unfold cnorm2. cbn [fst snd]. rewrite map_length, seq_length, map_map, lsum_map_seq.
  rewrite (rsum_ext _ _ (fun t => cnorm2 (cent M i t))) by (intros; apply cabs2_norm). fold (croot_mean_square (cnc M) (cent M i)).
  replace (croot_mean_square (cnc M) (cent M i) ^ 2 + 0 ^ 2) with (Rsqr (croot_mean_square (cnc M) (cent M i))) by (unfold Rsqr; ring). apply sqrt_Rsqr, sqrt_pos.
Qed.
Lemma crms_ext T f h : (forall t, (t < T)%nat -> f t = h t) -> croot_mean_square T f = croot_mean_square T h.
Proof. intros H. unfold croot_mean_square. f_equal. f_equal. apply rsum_ext. intros t Ht. rewrite H by exact Ht. reflexivity. Qed.
Lemma cloop_ok fuel : forall start, (cnc F - start < fuel)%nat ->
  crms_loop fuel block B F start = Ok (map (fun q => Some (map (fun i => croot_mean_square block (fun j => g i (start + q * block + j)%nat)) (seq 0 (cnr B)))) (seq 0 ((cnc F - start) / block))).
Proof.
  induction fuel as [|fuel IH]; intros start HF; [lia|]. cbn [crms_loop]. destruct (Nat.leb_spec (start + block) (cnc F)) as [H|H].
  - rewrite cmatmul_ok by exact HN. cbn [bind]. rewrite IH by lia. cbn [bind].
    replace ((cnc F - start) / block)%nat with (S ((cnc F - (start + block)) / block)).
    2: { replace (cnc F - start)%nat with (1 * block + (cnc F - (start + block)))%nat by lia. rewrite Nat.div_add_l by lia. reflexivity. }
    cbn [seq map]. f_equal. f_equal.
    + rewrite crms_rows_ok by (cbn [cnc ccol_block]; lia). cbn [cnc cnr cent ccol_block]. f_equal. apply map_ext_in. intros i Hi.
      replace (Nat.min (start + block) (cnc F) - start)%nat with block by lia. apply crms_ext. intros j _. unfold g. rewrite Nat.mul_0_l, Nat.add_0_r. reflexivity.
    + rewrite <- seq_shift, map_map. apply map_ext. intros q. f_equal. apply map_ext. intros i. apply crms_ext. intros j _. f_equal. lia.
  - rewrite Nat.div_small by lia. reflexivity.
Qed.
Lemma cvalues_ok : (0 < cnc F)%nat -> exists l, crms_values block B F = Ok (Some l) /\ length l = cnr B /\
  forall i, (i < cnr B)%nat -> nth i l 0 = croot_mean_square (if Nat.leb (cnc F) block then cnc F else (cnc F / block * block)%nat) (g i).
Proof.
  intros HF. unfold crms_values. destruct (Nat.ltb_spec block (cnc F)) as [H|H].
  - rewrite cloop_ok by lia. cbn [bind]. rewrite all_some_map. eexists. split; [reflexivity|]. rewrite map_length, seq_length. split; [reflexivity|].
    intros i Hi. rewrite nth_map_seq by exact Hi. rewrite (proj2 (Nat.leb_gt (cnc F) block)) by exact H. rewrite Nat.sub_0_r. set (Q := (cnc F / block)%nat).
    assert (QP : (0 < Q)%nat) by (unfold Q; apply Nat.div_str_pos; lia).
    assert (Q0 : INR Q <> 0) by (apply not_0_INR; lia). assert (B0 : INR block <> 0) by (apply not_0_INR; lia).
    unfold rms_mean, croot_mean_square. f_equal. rewrite map_length, seq_length, map_map, lsum_map_seq.
    rewrite (rsum_ext Q _ (fun q => / INR block * rsum block (fun j => cnorm2 (g i (q * block + j)%nat)))).
    + rewrite rsum_scal, (rsum_prod Q block (fun t => cnorm2 (g i t))), mult_INR. field. auto.
    + intros q _. rewrite nth_map_seq by exact Hi. rewrite pow2_sqrt.
      * cbn [Nat.add]. unfold Rdiv. ring.
      * apply (cmean_pos block (fun t => g i (0 + q * block + t)%nat)).
  - rewrite cmatmul_ok by exact HN. cbn [bind]. rewrite crms_rows_ok by exact HF. cbn [cnc cnr cent]. eexists. split; [reflexivity|]. rewrite map_length, seq_length. split; [reflexivity|].
    intros i Hi. rewrite nth_map_seq by exact Hi. rewrite (proj2 (Nat.leb_le (cnc F) block)) by lia. reflexivity.
Qed.
End Blocks.

(** the matrix of harmonics *)
Lemma sh_matrix_any_ok ty N azi zen : ty <> ShUnknown -> length zen = length azi ->
  exists Y, sh_matrix_any ty N azi zen = Ok Y /\ cnr Y = length azi /\ cnc Y = ((N + 1) ^ 2)%nat /\
    forall i n k, (i < length azi)%nat -> (n <= N)%nat -> (k < 2 * n + 1)%nat ->
      cent Y i (n * n + k) = harmonic ty n (Z.of_nat k - Z.of_nat n) (nth i azi 0) (nth i zen 0).
Proof.
  intros T L. destruct ty; [|apply sh_matrix_c_ok; exact L|congruence].
  destruct (sh_matrix_ok N azi zen L) as (Y & EY & RY & CY & HY). unfold sh_matrix_any. rewrite EY. cbn [bind]. eexists. split; [reflexivity|]. unfold cmat_of. cbn [cnr cnc cent]. split; [exact RY|]. split; [exact CY|].
  intros i n k Hi Hn Hk. rewrite HY by auto. reflexivity.
Qed.
(** the beam matrix *)
Lemma cbeam_matrix N w Y : cnc Y = ((N + 1) ^ 2)%nat -> length w = (N + 1)%nat ->
  exists B, cmatmul Y (cmat_of (vdiag (repeat_per_order w))) = Ok B /\ cnr B = cnr Y /\ cnc B = ((N + 1) ^ 2)%nat /\
    forall i n k, (n <= N)%nat -> (k < 2 * n + 1)%nat -> cent B i (n * n + k) = cscal (nth n w 0) (cent Y i (n * n + k)).
Proof.
  intros C L. assert (LR : length (repeat_per_order w) = ((N + 1) ^ 2)%nat) by (rewrite rpo_length, L, sq2; reflexivity).
  rewrite cmatmul_ok by (unfold cmat_of, vdiag, mdiag; cbn [nr cnr]; congruence). eexists. split; [reflexivity|]. unfold cmat_of, vdiag at 1, mdiag. cbn [cnr cnc nr nc cent ent]. split; [reflexivity|]. split; [exact LR|].
  assert (LB : forall n k, (n <= N)%nat -> (k < 2 * n + 1)%nat -> (n * n + k < length (repeat_per_order w))%nat).
  { intros n k Hn Hk. rewrite rpo_length, L. assert ((n + 1) * (n + 1) <= (N + 1) * (N + 1))%nat by (apply Nat.mul_le_mono; lia). lia. }
  intros i n k Hn Hk. rewrite C, <- LR. unfold csum, cmul, cscal. cbn [fst snd]. f_equal.
  - rewrite (rsum_ext _ _ (fun q => fst (cent Y i q) * ent (vdiag (repeat_per_order w)) q (n * n + k))) by (intros q _; ring).
    rewrite (vdiag_f (fun q => fst (cent Y i q))) by (apply LB; auto). rewrite rpo_nth by lia. ring.
  - rewrite (rsum_ext _ _ (fun q => snd (cent Y i q) * ent (vdiag (repeat_per_order w)) q (n * n + k))) by (intros q _; ring).
    rewrite (vdiag_f (fun q => snd (cent Y i q))) by (apply LB; auto). rewrite rpo_nth by lia. ring.
Qed.

Section Map.
Variable ndesign : Z -> res (list V3).
Variables (F : cmat) (cplx : bool) (sh_type : option shtype) (N : nat) (vp : list V3) (w_n : option (list R)) (n_plot : Z).
Hypothesis HV : ndesign n_plot = Ok vp.
Hypothesis HO : forall p, In p vp -> p <> (0, 0, 0).
Hypothesis HR : cnr F = ((N + 1) ^ 2)%nat.
Hypothesis HC : (0 < cnc F)%nat.
Hypothesis HW : length (weights_drawn N w_n) = (N + 1)%nat.
Hypothesis HT : sh_type <> Some ShUnknown.
Let ty := type_drawn cplx sh_type.
Lemma ty_known : ty <> ShUnknown.
Proof. unfold ty, type_drawn. destruct sh_type as [t|]; [congruence|]. destruct cplx; discriminate. Qed.
Lemma cmap_ok (todb : bool) : exists azi zen v, (forall lo hi, cshows_rms ty F N (samples_used (cnc F)) (weights_drawn N w_n) todb vp (RmsFig azi zen v lo hi)) /\
  forall dflt clim, sh_rms_map_any ndesign dflt F cplx sh_type todb w_n n_plot clim =
    match clim with
    | CDefault => (Ok (Some (RmsFig azi zen v (clim_low todb (fst dflt)) (snd dflt))), (clim_low todb (fst dflt), snd dflt), CDefault)
    | CList lo hi => (Ok (Some (RmsFig azi zen v (clim_low todb lo) hi)), dflt, CList (clim_low todb lo) hi)
    | CTuple (Some lo) hi => (Ok (Some (RmsFig azi zen v (Some lo) hi)), dflt, clim)
    | CTuple None hi => (Err TypeError, dflt, clim)
    end.
Proof.
  destruct (dirs_ok_angles vp HO) as (az & ze & ED & LA & LZ & HA).
  set (azi := (az ++ [PI; 0; - PI; PI; 0; - PI])%list). set (zen := (ze ++ [0; 0; 0; PI; PI; PI])%list).
  assert (LA' : length azi = (length vp + 6)%nat) by (unfold azi; rewrite app_length, LA; reflexivity).
  assert (LZ' : length zen = (length vp + 6)%nat) by (unfold zen; rewrite app_length, LZ; reflexivity).
  destruct (sh_matrix_any_ok ty N azi zen ty_known ltac:(congruence)) as (Y & EY & RY & CY & HY).
  destruct (cbeam_matrix N (weights_drawn N w_n) Y CY HW) as (B & EB & RB & CB & HB).
  destruct (cvalues_ok mem_block B F ltac:(unfold mem_block; apply Nat.neq_0_lt_0, Nat.pow_nonzero; lia) ltac:(congruence) HC) as (l & EL & LL & QL).
  exists azi, zen, (map (fun x => if todb then val_db x else Fin x) l). split.
  - intros lo hi. unfold cshows_rms. cbn [rf_azi rf_zen rf_rms]. rewrite map_length. split; [exact LA'|]. split; [exact LZ'|]. split; [congruence|]. split; [|split].
    + intros i Hi. unfold azi, zen. rewrite !app_nth1 by lia. apply HA. exact Hi.
    + intros i Hi. unfold zen. rewrite app_nth2 by lia. rewrite LZ. destruct (Nat.ltb_spec i (length vp + 3)).
      * destruct (i - length vp)%nat as [|[|[|q]]] eqn:E; try reflexivity. lia.
      * destruct (i - length vp)%nat as [|[|[|[|[|[|q]]]]]] eqn:E; try reflexivity; lia.
    + intros i Hi. rewrite (nth_indep _ NaN (if todb then val_db 0 else Fin 0)) by (rewrite map_length; lia). rewrite (map_nth (fun x => if todb then val_db x else Fin x)), drawn_val.
      f_equal. rewrite QL by lia. unfold samples_used. fold mem_block. apply crms_ext. intros t _.
      rewrite CB, csum_acn. unfold cbeam. apply csum_ext'. intros n Hn. rewrite cscal_cre. rewrite <- csum_mul. apply csum_ext'. intros k Hk. rewrite HB by lia. rewrite HY by lia. rewrite cscal_cre. ring.
  - intros dflt clim. unfold sh_rms_map_any. rewrite HR, order_of_sq, Nat2Z.id, HV. cbn [bind]. rewrite ED. cbn [orsome fst snd]. fold azi zen.
    change (match sh_type with Some t => t | None => if cplx then ShComplex else ShReal end) with (match sh_type with Some t => t | None => if cplx then ShComplex else ShReal end).
    replace (match sh_type with Some t => t | None => if cplx then ShComplex else ShReal end) with ty by (unfold ty, type_drawn; destruct sh_type, cplx; reflexivity).
    rewrite EY. cbn [bind].
    change (match w_n with Some w => w | None => hypercardioid_modal_weights N end) with (weights_drawn N w_n). rewrite EB. cbn [bind]. rewrite EL. cbn [bind]. reflexivity.
Qed.
End Map.

(** ** the same map for coefficients of the same functions *)
Lemma order_value n (a : nat -> C2) (b : nat -> R) azi zen :
  (a (acn n 0) = (b (acn n 0), 0) /\ forall m, (1 <= m <= Z.of_nat n)%Z ->
      a (acn n m) = cscal ((-1) ^ Z.to_nat m / sqrt 2) (b (acn n m), - b (acn n (- m))) /\
      a (acn n (- m)) = cscal (/ sqrt 2) (b (acn n m), b (acn n (- m)))) ->
  csum (2 * n + 1) (fun k => cmul (sph_harm (Z.of_nat k - Z.of_nat n) n azi zen) (a (n * n + k)%nat)) =
  cre (rsum (2 * n + 1) (fun k => sh_real n (Z.of_nat k - Z.of_nat n) azi zen * b (n * n + k)%nat)).
Proof.
  intros [H0 H1]. rewrite <- csum_cre.
  rewrite (csum_ext' (2 * n + 1) _ (fun k => (fun m => cmul (sph_harm m n azi zen) (a (acn n m))) (Z.of_nat k - Z.of_nat n)%Z)) by (intros k Hk; cbv beta; rewrite acn_at by auto; reflexivity).
  rewrite (csum_ext' (2 * n + 1) (fun k => cre _) (fun k => (fun m => cre (sh_real n m azi zen * b (acn n m))) (Z.of_nat k - Z.of_nat n)%Z)) by (intros k Hk; cbv beta; rewrite acn_at by auto; reflexivity).
  rewrite (csum_sym n (fun m => cmul (sph_harm m n azi zen) (a (acn n m)))), (csum_sym n (fun m => cre (sh_real n m azi zen * b (acn n m)))). f_equal.
  - rewrite H0, basis_zero. apply ceq; unfold cmul, cre; cbn [fst snd]; ring.
  - apply csum_ext'. intros i Hi. destruct (H1 (Z.of_nat (S i)) ltac:(lia)) as [E1 E2]. rewrite E1, E2. rewrite basis_pos, basis_neg by lia.
    pose proof (m1sq (Z.to_nat (Z.of_nat (S i)))) as M1. set (e := (-1) ^ Z.to_nat (Z.of_nat (S i))) in *. pose proof s2pos as P2. assert (H2 : / sqrt 2 * / sqrt 2 = / 2) by (rewrite <- Rinv_mult, s2sq; reflexivity).
    set (p := b (acn n (Z.of_nat (S i)))). set (q := b (acn n (- Z.of_nat (S i)))). set (x := sh_real n (Z.of_nat (S i)) azi zen). set (y := sh_real n (- Z.of_nat (S i)) azi zen).
    set (h := / sqrt 2) in *. apply ceq; unfold cadd, cmul, cscal, cre, Rdiv; cbn [fst snd]; fold h.
    + transitivity ((e * e + 1) * (h * h) * (p * x + q * y)); [ring|]. rewrite M1, H2. field.
    + transitivity ((e * e - 1) * (h * h) * (p * y - q * x)); [ring|]. rewrite M1. ring.
Qed.
Lemma same_beam N w F G azi zen t : same_functions N F G -> (t < nc F)%nat -> cbeam ShComplex N w G azi zen t = cre (beam N w F azi zen t).
Proof.
  intros (_ & _ & _ & H) Ht. unfold cbeam, beam. rewrite <- csum_cre. apply csum_ext'. intros n Hn. cbn [harmonic].
  rewrite (order_value n (fun k => cent G k t) (fun k => ent F k t)) by (apply H; [lia|exact Ht]). unfold cscal, cre. cbn [fst snd]. f_equal. ring.
Qed.
Lemma real_beam N w F azi zen t : cbeam ShReal N w (cmat_of F) azi zen t = cre (beam N w F azi zen t).
Proof.
  unfold cbeam, beam. rewrite <- csum_cre. apply csum_ext'. intros n Hn. rewrite cscal_cre.
  replace (cre (nth n w 0 * _)) with (cmul (cre (nth n w 0)) (cre (rsum (2 * n + 1) (fun k => sh_real n (Z.of_nat k - Z.of_nat n) azi zen * ent F (n * n + k) t)))) by (apply ceq; unfold cmul, cre; cbn [fst snd]; ring).
  f_equal. rewrite <- csum_cre. apply csum_ext'. intros k Hk. unfold cmat_of. cbn [harmonic cent]. apply ceq; unfold cmul, cre; cbn [fst snd]; ring.
Qed.
Lemma crms_real T f b : (forall t, (t < T)%nat -> f t = cre (b t)) -> croot_mean_square T f = root_mean_square T b.
Proof. intros H. unfold croot_mean_square, root_mean_square. f_equal. f_equal. apply rsum_ext. intros t Ht. rewrite H by exact Ht. unfold cnorm2, cre. cbn [fst snd]. ring. Qed.
(** ** a plane wave *)
Lemma unit_coeffs n azi zen : sph_harm 0 n azi zen = (sh_real n 0 azi zen, 0).
Proof. apply basis_zero. Qed.
Lemma pair_order ty n a z a0 z0 : ty <> ShUnknown ->
  csum (2 * n + 1) (fun k => cmul (harmonic ty n (Z.of_nat k - Z.of_nat n) a z) (cconj (harmonic ty n (Z.of_nat k - Z.of_nat n) a0 z0))) =
  cre (rsum (2 * n + 1) (fun k => sh_real n (Z.of_nat k - Z.of_nat n) a z * sh_real n (Z.of_nat k - Z.of_nat n) a0 z0)).
Proof.
  intros T. destruct ty; [| |congruence]; cbn [harmonic]; rewrite <- csum_cre.
  - apply csum_ext'. intros k Hk. apply ceq; unfold cmul, cconj, cre; cbn [fst snd]; ring.
  - rewrite (csum_sym n (fun m => cmul (sph_harm m n a z) (cconj (sph_harm m n a0 z0)))), (csum_sym n (fun m => cre (sh_real n m a z * sh_real n m a0 z0))). f_equal.
    + rewrite !basis_zero. apply ceq; unfold cmul, cconj, cre; cbn [fst snd]; ring.
    + apply csum_ext'. intros i Hi. rewrite !basis_pos, !basis_neg by lia.
      pose proof (m1sq (Z.to_nat (Z.of_nat (S i)))) as M1. set (e := (-1) ^ Z.to_nat (Z.of_nat (S i))) in *. assert (H2 : / sqrt 2 * / sqrt 2 = / 2) by (rewrite <- Rinv_mult, s2sq; reflexivity).
      set (x := sh_real n (Z.of_nat (S i)) a z). set (y := sh_real n (- Z.of_nat (S i)) a z). set (p := sh_real n (Z.of_nat (S i)) a0 z0). set (q := sh_real n (- Z.of_nat (S i)) a0 z0).
      unfold Rdiv. set (h := / sqrt 2) in *. apply ceq; unfold cadd, cmul, cconj, cscal, cre; cbn [fst snd].
      * transitivity ((e * e + 1) * (h * h) * (x * p + y * q)); [ring|]. rewrite M1, H2. field.
      * transitivity ((e * e - 1) * (h * h) * (y * p - x * q)); [ring|]. rewrite M1. ring.
Qed.
Lemma cplane_beam ty N S azi zen s F w a z t : ty <> ShUnknown -> 0 <= zen <= PI -> 0 <= z <= PI -> cplane_wave ty N S azi zen s F -> length w = (N + 1)%nat -> (t < S)%nat ->
  cbeam ty N w F a z t = cscal (dirac_at w (acos (dot3 (sph2cart a z 1) (sph2cart azi zen 1)))) (s t).
Proof.
  intros T Z1 Z2 (_ & _ & HF) LW Ht. rewrite (dirac_pattern w _ a z azi zen Z2 Z1).
  - rewrite LW. rewrite cscal_cre. rewrite <- csum_cre. match goal with |- _ = cmul ?x ?y => replace (cmul x y) with (cmul y x) by ring end. rewrite <- csum_mul. unfold cbeam. apply csum_ext'. intros n Hn. rewrite cscal_cre.
    transitivity (cmul (cre (nth n w 0)) (cmul (s t) (csum (2 * n + 1) (fun k => cmul (harmonic ty n (Z.of_nat k - Z.of_nat n) a z) (cconj (harmonic ty n (Z.of_nat k - Z.of_nat n) azi zen)))))).
    + f_equal. rewrite <- csum_mul. apply csum_ext'. intros k Hk. rewrite HF by lia. ring.
    + rewrite pair_order by exact T. apply ceq; unfold cmul, cre; cbn [fst snd]; ring.
  - rewrite cos_acos; [reflexivity|]. apply unit_dot_bound; apply unit_dir.
Qed.
Lemma crms_scaled T f s c : (forall t, (t < T)%nat -> f t = cscal c (s t)) -> croot_mean_square T f = Rabs c * croot_mean_square T s.
Proof.
  intros H. unfold croot_mean_square. rewrite (rsum_ext T _ (fun t => c ^ 2 * cnorm2 (s t))) by (intros t Ht; rewrite H by exact Ht; unfold cnorm2, cscal; cbn [fst snd]; ring). rewrite rsum_scal. unfold Rdiv. rewrite Rmult_assoc.
  rewrite sqrt_mult_alt by apply pow2_ge_0. f_equal. replace (c ^ 2) with (Rsqr c) by (unfold Rsqr; ring). apply sqrt_Rsqr_abs.
Qed.
Lemma cplane_wave_map ty N S azi zen s F vp fig : ty <> ShUnknown -> 0 <= zen <= PI -> (0 < S)%nat -> cplane_wave ty N S azi zen s F ->
  cshows_rms ty F N (samples_used S) (weights_drawn N None) false vp fig ->
  forall i, (i < length vp + 6)%nat -> exists v, nth i (rf_rms fig) NaN = Fin v /\ 0 <= v <= croot_mean_square (samples_used S) s /\
    (sph2cart (nth i (rf_azi fig) 0) (nth i (rf_zen fig) 0) 1 = sph2cart azi zen 1 -> v = croot_mean_square (samples_used S) s).
Proof.
  intros T Z1 HS PW (_ & _ & _ & ZV & HZ & HV) i Hi. rewrite HV by exact Hi. cbn [drawn]. eexists. split; [reflexivity|].
  assert (Zi : 0 <= nth i (rf_zen fig) 0 <= PI).
  { destruct (Nat.lt_ge_cases i (length vp)) as [L|L]; [apply ZV; exact L|]. rewrite HZ by lia. pose proof PI_RGT_0. destruct (Nat.ltb i (length vp + 3)); lra. }
  rewrite default_weights. set (c := dirac_at (hypercardioid_modal_weights N) (acos (dot3 (sph2cart (nth i (rf_azi fig) 0) (nth i (rf_zen fig) 0) 1) (sph2cart azi zen 1)))).
  rewrite (crms_scaled _ _ s c).
  - pose proof (hyper_max N (acos (dot3 (sph2cart (nth i (rf_azi fig) 0) (nth i (rf_zen fig) 0) 1) (sph2cart azi zen 1)))) as M. fold c in M.
    assert (P : 0 <= croot_mean_square (samples_used S) s) by apply sqrt_pos. pose proof (Rabs_pos c). split; [split; [apply Rmult_le_pos; assumption|]|].
    + rewrite <- (Rmult_1_l (croot_mean_square _ s)) at 2. apply Rmult_le_compat_r; assumption.
    + intros E. unfold c. rewrite E, unit_dir, acos_1, hyper_peak, Rabs_R1. ring.
  - intros t Ht. unfold c. apply (cplane_beam ty N S azi zen s F); auto; [apply hyper_length|]. pose proof (used_le S). lia.
Qed.
