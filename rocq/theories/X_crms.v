(** Final forms and examples: RMS maps of complex signals. *)
From Coq Require Import Lra Lia Ring.
From Verif Require Import Base BaseFacts M_utils S_utils P_utils M_sig P_sig M_process M_process2 M_sph0 M_sph M_grids M_decoder M_decoder2 M_plot S_linalg S_sph S_decoder S_decoder2 S_plot
  P_grids2 P_sph1 P_sph2 P_sph3 P_sph4 P_sph5 P_sph6 P_sph7 P_sph8 P_sph9 P_sph10 P_sph11 P_sph12 P_sph13 P_dec6 P_plot2 P_plot3 P_plot4 M_parsa3 M_process3 S_zp P_cplx M_io M_io2 M_io3 M_sph3 S_sph3 M_misc P_csph1 P_csph2 P_csph3 X_csph M_crms S_crms P_crms.
Open Scope R_scope.

Lemma f_crms ndesign F cplx sh_type N vp w_n n_plot (todb : bool) :
  ndesign n_plot = Ok vp -> (forall p, In p vp -> p <> (0, 0, 0)) -> cnr F = ((N + 1) ^ 2)%nat -> (0 < cnc F)%nat ->
  length (weights_drawn N w_n) = (N + 1)%nat -> sh_type <> Some ShUnknown ->
  exists azi zen v, (forall lo hi, cshows_rms (type_drawn cplx sh_type) F N (samples_used (cnc F)) (weights_drawn N w_n) todb vp (RmsFig azi zen v lo hi)) /\
  forall dflt clim, sh_rms_map_any ndesign dflt F cplx sh_type todb w_n n_plot clim =
    match clim with
    | CDefault => (Ok (Some (RmsFig azi zen v (clim_low todb (fst dflt)) (snd dflt))), (clim_low todb (fst dflt), snd dflt), CDefault)
    | CList lo hi => (Ok (Some (RmsFig azi zen v (clim_low todb lo) hi)), dflt, CList (clim_low todb lo) hi)
    | CTuple (Some lo) hi => (Ok (Some (RmsFig azi zen v (Some lo) hi)), dflt, clim)
    | CTuple None hi => (Err TypeError, dflt, clim)
    end.
Proof. intros A B C D E G. exact (cmap_ok ndesign F cplx sh_type N vp w_n n_plot A B C D E G todb). Qed.

Lemma f_crms_unknown ndesign F cplx vp w_n n_plot todb dflt clim :
  ndesign n_plot = Ok vp -> (forall p, In p vp -> p <> (0, 0, 0)) ->
  sh_rms_map_any ndesign dflt F cplx (Some ShUnknown) todb w_n n_plot clim = (Err ValueError, dflt, clim).
Proof.
  intros HV HO. destruct (dirs_ok_angles vp HO) as (az & ze & ED & _). unfold sh_rms_map_any. rewrite HV. cbn [bind]. rewrite ED. reflexivity.
Qed.

Lemma f_crms_wave cplx sh_type ndesign N S azi zen s F vp n_plot :
  ndesign n_plot = Ok vp -> (forall p, In p vp -> p <> (0, 0, 0)) -> sh_type <> Some ShUnknown ->
  0 <= zen <= PI -> (0 < S)%nat -> cplane_wave (type_drawn cplx sh_type) N S azi zen s F ->
  exists fig, sh_rms_map_any ndesign (None, None) F cplx sh_type false None n_plot CDefault = (Ok (Some fig), (Some 0, None), CDefault) /\
  length (rf_rms fig) = (length vp + 6)%nat /\
  (forall i, (i < length vp)%nat -> aims (nth i vp (0, 0, 0)) (sph2cart (nth i (rf_azi fig) 0) (nth i (rf_zen fig) 0) 1)) /\
  forall i, (i < length vp + 6)%nat -> exists v, nth i (rf_rms fig) NaN = Fin v /\ 0 <= v <= croot_mean_square (samples_used S) s /\
    (sph2cart (nth i (rf_azi fig) 0) (nth i (rf_zen fig) 0) 1 = sph2cart azi zen 1 -> v = croot_mean_square (samples_used S) s).
Proof.
  intros HV HO HT Z HS PW. pose proof PW as (R1 & C1 & E1).
  destruct (cmap_ok ndesign F cplx sh_type N vp None n_plot HV HO R1 ltac:(lia) (hyper_length N) HT false) as (az & ze & v & SH & E).
  eexists. split; [rewrite E; reflexivity|]. cbn [fst snd clim_low]. specialize (SH (Some 0) None). pose proof SH as (_ & _ & L & A & _). split; [exact L|]. split; [intros i Hi; apply A; exact Hi|].
  rewrite C1 in SH. apply (cplane_wave_map (type_drawn cplx sh_type) N S azi zen s F vp); auto.
  unfold type_drawn. destruct sh_type as [t|]; [congruence|]. destruct cplx; discriminate.
Qed.

(** equal beams give equal maps *)
Lemma equal_beams ndesign (F : mat) (G : cmat) cplx sh_type N vp w_n n_plot todb dflt clim :
  ndesign n_plot = Ok vp -> (forall p, In p vp -> p <> (0, 0, 0)) -> nr F = ((N + 1) ^ 2)%nat -> cnr G = ((N + 1) ^ 2)%nat -> (0 < nc F)%nat -> cnc G = nc F ->
  length (weights_drawn N w_n) = (N + 1)%nat -> sh_type <> Some ShUnknown ->
  (forall azi zen t, (t < nc F)%nat -> cbeam (type_drawn cplx sh_type) N (weights_drawn N w_n) G azi zen t = cre (beam N (weights_drawn N w_n) F azi zen t)) ->
  sh_rms_map_any ndesign dflt G cplx sh_type todb w_n n_plot clim = sh_rms_map ndesign dflt F todb w_n n_plot clim.
Proof.
  intros HV HO RF RG CF CG HW HT HB.
  destruct (dirs_ok_angles vp HO) as (az & ze & ED & LA & LZ & HA).
  set (azi := (az ++ [PI; 0; - PI; PI; 0; - PI])%list). set (zen := (ze ++ [0; 0; 0; PI; PI; PI])%list).
  assert (LA' : length azi = (length vp + 6)%nat) by (unfold azi; rewrite app_length, LA; reflexivity).
  assert (LZ' : length zen = (length vp + 6)%nat) by (unfold zen; rewrite app_length, LZ; reflexivity).
  assert (P0 : (0 < mem_block)%nat) by (unfold mem_block; apply Nat.neq_0_lt_0, Nat.pow_nonzero; lia).
  assert (TK : type_drawn cplx sh_type <> ShUnknown) by (unfold type_drawn; destruct sh_type as [t|]; [congruence|]; destruct cplx; discriminate).
  destruct (sh_matrix_any_ok (type_drawn cplx sh_type) N azi zen TK ltac:(congruence)) as (Yc & EYc & RYc & CYc & HYc).
  destruct (cbeam_matrix N (weights_drawn N w_n) Yc CYc HW) as (Bc & EBc & RBc & CBc & HBc).
  destruct (cvalues_ok mem_block Bc G P0 ltac:(congruence) ltac:(congruence)) as (lc & ELc & LLc & QLc).
  destruct (sh_matrix_ok N azi zen ltac:(congruence)) as (Y & EY & RY & CY & HY).
  destruct (beam_matrix N (weights_drawn N w_n) Y CY HW) as (B & EB & RB & CB & HBm).
  destruct (values_ok mem_block B F P0 ltac:(congruence) CF) as (l & EL & LL & QL).
  assert (EQ : lc = l).
  { apply (nth_ext _ _ 0 0); [congruence|]. intros i Hi. rewrite QLc, QL by congruence. rewrite CG.
    assert (Hi' : (i < length azi)%nat) by congruence.
    apply crms_real. intros t Ht. assert (Ht' : (t < nc F)%nat).
    { destruct (Nat.leb (nc F) mem_block); [exact Ht|]. pose proof (Nat.mul_div_le (nc F) mem_block ltac:(lia)). lia. }
    rewrite (beam_product N (weights_drawn N w_n) Y B F azi zen i ltac:(congruence) EY CY Hi' CB HBm), <- HB by exact Ht'.
    rewrite CBc, csum_acn. unfold cbeam. apply csum_ext'. intros n Hn. rewrite cscal_cre, <- csum_mul. apply csum_ext'. intros k Hk. rewrite HBc by lia. rewrite HYc by lia.
    rewrite cscal_cre. apply ceq; unfold cmul; cbn [fst snd]; ring. }
  unfold sh_rms_map_any, sh_rms_map. rewrite RF, RG, order_of_sq, Nat2Z.id, HV. cbn [bind]. rewrite ED. cbn [orsome fst snd]. fold azi zen.
  replace (match sh_type with Some t => t | None => if cplx then ShComplex else ShReal end) with (type_drawn cplx sh_type) by (unfold type_drawn; destruct sh_type, cplx; reflexivity).
  rewrite EYc, EY. cbn [bind]. change (match w_n with Some w => w | None => hypercardioid_modal_weights N end) with (weights_drawn N w_n). rewrite EBc, EB. cbn [bind]. rewrite ELc, EL, EQ. reflexivity.
Qed.
Lemma f_crms_same ndesign (F : mat) (G : cmat) N vp w_n n_plot todb dflt clim :
  ndesign n_plot = Ok vp -> (forall p, In p vp -> p <> (0, 0, 0)) -> (0 < nc F)%nat ->
  length (weights_drawn N w_n) = (N + 1)%nat -> same_functions N F G ->
  sh_rms_map_any ndesign dflt G true None todb w_n n_plot clim = sh_rms_map ndesign dflt F todb w_n n_plot clim.
Proof.
  intros HV HO CF HW SF. pose proof SF as (RG & RF & CG & _). apply (equal_beams ndesign F G true None N vp); auto; [discriminate|]. intros azi zen t Ht. apply same_beam; auto.
Qed.
Lemma f_crms_real ndesign (F : mat) N vp w_n n_plot todb dflt clim (cplx : bool) :
  ndesign n_plot = Ok vp -> (forall p, In p vp -> p <> (0, 0, 0)) -> nr F = ((N + 1) ^ 2)%nat -> (0 < nc F)%nat -> length (weights_drawn N w_n) = (N + 1)%nat ->
  sh_rms_map_any ndesign dflt (cmat_of F) false None todb w_n n_plot clim = sh_rms_map ndesign dflt F todb w_n n_plot clim /\
  sh_rms_map_any ndesign dflt (cmat_of F) cplx (Some ShReal) todb w_n n_plot clim = sh_rms_map ndesign dflt F todb w_n n_plot clim.
Proof.
  intros HV HO RF CF HW. split; apply (equal_beams ndesign F (cmat_of F) _ _ N vp); auto; try discriminate; intros azi zen t Ht; apply real_beam.
Qed.

(** ** real coefficients in a complex array *)
Definition two_dirs (_ : Z) : res (list V3) := Ok [(1, 0, 0); (0, 1, 0)].
Definition from_left : mat := Mat 4 1 (fun k _ => sh_real (if Nat.eqb k 0 then 0 else 1) (if Nat.eqb k 0 then 0 else Z.of_nat k - 2) (PI / 2) (PI / 2)).
Lemma from_left_wave : plane_wave 1 1 (PI / 2) (PI / 2) (fun _ => 1) from_left.
Proof.
  split; [reflexivity|]. split; [reflexivity|]. intros n k t Hn Hk Ht. unfold from_left. cbn [ent]. rewrite Rmult_1_l.
  destruct n as [|[|n]]; [| |lia]; [destruct k as [|k]; [reflexivity|lia]|]. destruct k as [|[|[|k]]]; [reflexivity|reflexivity|reflexivity|lia].
Qed.
Lemma two_nonzero : forall p, In p [(1, 0, 0); (0, 1, 0)] -> p <> (0, 0, 0).
Proof. intros p [<-|[<-|[]]] Z; injection Z; lra. Qed.
Lemma unit_aim v d : dot3 v v = 1 -> dot3 d d = 1 -> aims v d -> d = v.
Proof.
  intros V D (k & K & ->). assert (k * k = 1). { transitivity (dot3 (scal3 k d) (scal3 k d)); [|exact V]. transitivity (k * k * dot3 d d); [rewrite D; ring|]. destruct d as [[x y] z]. unfold dot3, scal3, vx, vy, vz. cbn. ring. }
  assert (k = 1) by nra. subst k. destruct d as [[x y] z]. unfold scal3, vx, vy, vz. cbn. rewrite !Rmult_1_l. reflexivity.
Qed.
Lemma from_left_beam az ze : 0 <= ze <= PI -> let v := sph2cart az ze 1 in
  cbeam ShComplex 1 (weights_drawn 1 None) (cmat_of from_left) az ze 0 = (1 / 4 + 3 / 4 * / sqrt 2 * vx v, - (3 / 4 * / sqrt 2 * vy v)).
Proof.
  intros Hz v. assert (S0 : 0 <= sin ze) by (apply sin_ge_0; lra).
  destruct (sh1 az ze S0) as (Y0 & Y1 & Y2 & Y3). fold v in Y1, Y2, Y3.
  pose proof PI_RGT_0 as PP. assert (S1 : 0 <= sin (PI / 2)) by (rewrite sin_PI2; lra).
  destruct (sh1 (PI / 2) (PI / 2) S1) as (Z0 & Z1 & Z2 & Z3). unfold sph2cart in Z1, Z2, Z3. unfold vx, vy, vz in Z1, Z2, Z3. cbn [fst snd] in Z1, Z2, Z3. rewrite sin_PI2, cos_PI2 in *.
  set (c := sqrt 3 / sqrt (4 * PI)) in *. set (h := / sqrt (4 * PI)) in *.
  assert (HH : h * h = / (4 * PI)) by (unfold h; rewrite <- Rinv_mult, sqrt_sqrt by lra; reflexivity).
  assert (CC : c * c = 3 / (4 * PI)). { unfold c, Rdiv. fold h. transitivity (sqrt 3 * sqrt 3 * (h * h)); [ring|]. rewrite HH, sqrt_sqrt by lra. field. lra. }
  pose proof (basis_zero 0 az ze) as B0. pose proof (basis_zero 1 az ze) as B2. pose proof (basis_pos 1 1 az ze ltac:(lia)) as B3. pose proof (basis_neg 1 1 az ze ltac:(lia)) as B1.
  change (- (1))%Z with (-1)%Z in *. change (Z.to_nat 1) with 1%nat in B3. rewrite Y0 in B0. rewrite Y2 in B2. rewrite Y1, Y3 in B1, B3.
  assert (W : forall n, (n < 2)%nat -> nth n (weights_drawn 1 None) 0 = PI).
  { intros n Hn. unfold weights_drawn. replace (4 * PI / INR ((1 + 1) ^ 2)) with PI by (simpl; field). destruct n as [|[|n]]; [reflexivity|reflexivity|lia]. }
  assert (E0 : cent (cmat_of from_left) 0 0 = (h, 0)) by (unfold cmat_of, from_left; cbn [cent ent Nat.eqb]; rewrite Z0; reflexivity).
  assert (E1 : cent (cmat_of from_left) 1 0 = (c, 0)) by (unfold cmat_of, from_left; cbn [cent ent Nat.eqb]; change (Z.of_nat 1 - 2)%Z with (-1)%Z; rewrite Z1; f_equal; ring).
  assert (E2 : cent (cmat_of from_left) 2 0 = (0, 0)) by (unfold cmat_of, from_left; cbn [cent ent Nat.eqb]; change (Z.of_nat 2 - 2)%Z with 0%Z; rewrite Z2; f_equal; ring).
  assert (E3 : cent (cmat_of from_left) 3 0 = (0, 0)) by (unfold cmat_of, from_left; cbn [cent ent Nat.eqb]; change (Z.of_nat 3 - 2)%Z with 1%Z; rewrite Z3; f_equal; ring).
  set (G := cmat_of from_left) in *. clearbody G.
  assert (C1 : csum (2 * 0 + 1) (fun k => cmul (harmonic ShComplex 0 (Z.of_nat k - Z.of_nat 0) az ze) (cent G (0 * 0 + k)%nat 0)) = (h * h, 0)).
  { unfold csum. cbn [rsum Nat.mul Nat.add harmonic]. change (Z.of_nat 0 - Z.of_nat 0)%Z with 0%Z. rewrite B0, E0. unfold cmul. cbn [fst snd]. f_equal; ring. }
  assert (C3 : csum (2 * 1 + 1) (fun k => cmul (harmonic ShComplex 1 (Z.of_nat k - Z.of_nat 1) az ze) (cent G (1 * 1 + k)%nat 0)) = (c * c * / sqrt 2 * vx v, - (c * c * / sqrt 2 * vy v))).
  { unfold csum. cbn [rsum Nat.mul Nat.add harmonic]. change (Z.of_nat 0 - Z.of_nat 1)%Z with (-1)%Z. change (Z.of_nat 1 - Z.of_nat 1)%Z with 0%Z. change (Z.of_nat 2 - Z.of_nat 1)%Z with 1%Z.
    rewrite B1, B2, B3, E1, E2, E3. unfold cmul, cscal. cbn [fst snd]. f_equal; ring. }
  unfold cbeam, csum at 1. cbn [Nat.add rsum]. cbv beta. rewrite C1, C3, !W by lia. unfold cscal. cbn [fst snd]. rewrite HH, CC. assert (sqrt 2 <> 0) by (pose proof s2pos; lra). f_equal; field; lra.
Qed.
Lemma f_crms_dtype_refuted : exists F fig v0 v1, plane_wave 1 1 (PI / 2) (PI / 2) (fun _ => 1) F /\ sph2cart (PI / 2) (PI / 2) 1 = (0, 1, 0) /\
  sh_rms_map_any two_dirs (None, None) (cmat_of F) true None false None 1 CDefault = (Ok (Some fig), (Some 0, None), CDefault) /\
  sph2cart (nth 0 (rf_azi fig) 0) (nth 0 (rf_zen fig) 0) 1 = (1, 0, 0) /\ sph2cart (nth 1 (rf_azi fig) 0) (nth 1 (rf_zen fig) 0) 1 = (0, 1, 0) /\
  nth 0 (rf_rms fig) NaN = Fin v0 /\ nth 1 (rf_rms fig) NaN = Fin v1 /\ v1 < v0 < 1.
Proof.
  destruct (cmap_ok two_dirs (cmat_of from_left) true None 1 [(1, 0, 0); (0, 1, 0)] None 1 eq_refl two_nonzero eq_refl ltac:(cbn; lia) (hyper_length 1) ltac:(discriminate) false) as (az & ze & v & SH & E).
  specialize (SH (Some 0) None). set (fig := RmsFig az ze v (Some 0) None) in *. pose proof SH as (_ & _ & _ & A & _ & V). change (type_drawn true None) with ShComplex in V.
  change (samples_used (cnc (cmat_of from_left))) with (samples_used 1) in V. rewrite (used_all 1) in V by (left; apply (Nat.pow_le_mono_r 2 0 16); lia).
  destruct (A 0%nat ltac:(cbn; lia)) as (T0 & A0). destruct (A 1%nat ltac:(cbn; lia)) as (T1 & A1). cbn [nth] in A0, A1.
  apply unit_aim in A0; [|unfold dot3, vx, vy, vz; cbn; ring|apply unit_dir]. apply unit_aim in A1; [|unfold dot3, vx, vy, vz; cbn; ring|apply unit_dir].
  pose proof (V 0%nat ltac:(cbn; lia)) as V0. pose proof (V 1%nat ltac:(cbn; lia)) as V1. cbn [drawn] in V0, V1.
  exists from_left, fig. do 2 eexists. split; [exact from_left_wave|]. split; [unfold sph2cart; rewrite sin_PI2, cos_PI2; repeat (f_equal; try ring)|].
  split; [rewrite E; reflexivity|]. split; [exact A0|]. split; [exact A1|]. split; [exact V0|]. split; [exact V1|].
  unfold croot_mean_square. cbn [rsum]. rewrite !from_left_beam by assumption. rewrite A0, A1. unfold cnorm2, vx, vy, vz. cbn [fst snd INR].
  pose proof s2pos as P. pose proof s2sq as Q. assert (H2 : / sqrt 2 * / sqrt 2 = / 2) by (rewrite <- Rinv_mult, s2sq; reflexivity). assert (H3 : 0 < / sqrt 2) by (apply Rinv_0_lt_compat; exact P). set (h := / sqrt 2) in *.
  assert (h < 1) by nra. split.
  - apply sqrt_lt_1_alt. nra.
  - apply Rlt_le_trans with (sqrt 1); [|rewrite sqrt_1; lra]. apply sqrt_lt_1_alt. nra.
Qed.
Definition tone : cmat := CMat 4 4 (fun k t => cmul (cos (INR t * (PI / 2)), sin (INR t * (PI / 2))) (cconj (harmonic ShComplex (if Nat.eqb k 0 then 0 else 1) (if Nat.eqb k 0 then 0 else Z.of_nat k - 2) (PI / 2) (PI / 2)))).
Lemma ex_crms : two_dirs 1 = Ok [(1, 0, 0); (0, 1, 0)] /\ (forall p, In p [(1, 0, 0); (0, 1, 0)] -> p <> (0, 0, 0)) /\
  cplane_wave (type_drawn true None) 1 4 (PI / 2) (PI / 2) (fun t => (cos (INR t * (PI / 2)), sin (INR t * (PI / 2)))) tone /\
  croot_mean_square (samples_used 4) (fun t => (cos (INR t * (PI / 2)), sin (INR t * (PI / 2)))) = 1 /\
  exists F G, same_functions 1 F G /\ nr F = 4%nat /\ nc F = 1%nat /\ ent F 1 0 <> 0.
Proof.
  split; [reflexivity|]. split; [exact two_nonzero|]. split; [|split].
  - split; [reflexivity|]. split; [reflexivity|]. intros n k t Hn Hk Ht. unfold tone. cbn [cent].
    destruct n as [|[|n]]; [| |lia]; [destruct k as [|k]; [reflexivity|lia]|]. destruct k as [|[|[|k]]]; [reflexivity|reflexivity|reflexivity|lia].
  - rewrite used_all by (left; apply (Nat.pow_le_mono_r 2 2 16); lia). unfold croot_mean_square.
    rewrite (rsum_ext 4 _ (fun _ => 1)). { cbn [rsum]. replace ((0 + 1 + 1 + 1 + 1) / INR 4) with 1 by (simpl; field). apply sqrt_1. }
    intros t _. unfold cnorm2. cbn [fst snd]. pose proof (sin2_cos2 (INR t * (PI / 2))) as S. unfold Rsqr in S. lra.
  - destruct ex_complex as (_ & _ & F & G & SF & RF & CF & _ & E & _). exists F, G. split; [exact SF|]. split; [exact RF|]. split; [exact CF|]. rewrite E. lra.
Qed.
