(** Final forms and example lemmas for parsa.py, part 1. *)
From Coq Require Import Lra Lia.
From Verif Require Import Base BaseFacts M_utils M_sig M_sph0 M_sph M_parsa S_linalg S_sph S_parsa P_linalg P_sig P_sph5 P_sph7 P_sph8 P_sph9 P_sph12 P_sph13 X_sph P_parsa1 P_parsa2 P_parsa3 P_parsa4 P_parsa5.
Open Scope R_scope.

(** ** C12 *)
Lemma f_unit_gain p N azi zen g (s : list R) : p = PHyper \/ p = PCardioid \/ p = PMaxRe -> length zen = length azi -> (g < length azi)%nat ->
  exists W F Out, sh_beamformer_from_pattern p N azi zen = Ok (Some W) /\ nr W = length azi /\ nc W = ((N + 1) ^ 2)%nat /\
    src_to_sh (row_mat s) [nth g azi 0] [nth g zen 0] N = Ok F /\ sh_beamform W F = Ok Out /\ nr Out = length azi /\ nc Out = length s /\
    forall t, (t < length s)%nat -> ent Out g t = nth t s 0.
Proof.
  intros HP HL Hg. destruct (named_patterns p N HP) as (c & EC & LC & U). destruct (pattern_beam c N azi zen LC HL) as (W & EW & RW & CW & _).
  assert (E : sh_beamformer_from_pattern p N azi zen = Ok (Some W)) by (rewrite (pattern_named p N azi zen c EC); auto).
  destruct (unit_gain p N azi zen W g s c EC LC U HL E Hg) as (F & Out & EF & EO & CO & HO). exists W, F, Out. do 5 (split; [assumption|]). split; auto.
  unfold sh_beamform in EO. destruct (matmul_inv _ _ _ EO) as (_ & R1 & _). congruence.
Qed.
Lemma f_unit_gain_weights c N azi zen g (s : list R) : length c = (N + 1)%nat -> unit_response c -> length zen = length azi -> (g < length azi)%nat ->
  exists W F Out, sh_beamformer_from_pattern (PWeights c) N azi zen = Ok (Some W) /\
    src_to_sh (row_mat s) [nth g azi 0] [nth g zen 0] N = Ok F /\ sh_beamform W F = Ok Out /\ nc Out = length s /\
    forall t, (t < length s)%nat -> ent Out g t = nth t s 0.
Proof.
  intros LC U HL Hg. destruct (pattern_beam c N azi zen LC HL) as (W & EW & RW & CW & _).
  destruct (unit_gain (PWeights c) N azi zen W g s c eq_refl LC U HL EW Hg) as (F & Out & EF & EO & CO & HO). exists W, F, Out. auto.
Qed.
Lemma f_prepared_weights N : (forall k n_c, n_c <> 0 -> exists c, butterworth_modal_weights N k n_c true = Ok (Some c) /\ length c = (N + 1)%nat /\ unit_response c) /\
  (forall w c, length w = (N + 1)%nat -> unity_gain w = Some c -> length c = (N + 1)%nat /\ unit_response c).
Proof.
  split; [intros; apply butterworth_unit; auto|]. intros w c L E. destruct (unity_gain_unit w c E). split; auto. congruence.
Qed.
Lemma f_pattern c N azi zen az ze (s : list R) : length c = (N + 1)%nat -> length zen = length azi -> zeniths zen -> 0 <= ze <= PI ->
  exists W F Out, sh_beamformer_from_pattern (PWeights c) N azi zen = Ok (Some W) /\ src_to_sh (row_mat s) [az] [ze] N = Ok F /\ sh_beamform W F = Ok Out /\
    nr Out = length azi /\ nc Out = length s /\
    forall g t, (g < length azi)%nat -> (t < length s)%nat ->
      ent Out g t = rsum (N + 1) (fun n => nth n c 0 * ((2 * INR n + 1) / (4 * PI) *
          eval_legendre n (dot3 (sph2cart (nth g azi 0) (nth g zen 0) 1) (sph2cart az ze 1)))) * nth t s 0.
Proof.
  intros LC HL HZ Hz. destruct (pattern_beam c N azi zen LC HL) as (W & EW & RW & CW & _).
  destruct (beam_response c N azi zen W az ze s LC HL EW) as (F & Out & EF & EO & RO & CO & HO). exists W, F, Out. do 5 (split; [assumption|]).
  intros g t Hg Ht. rewrite HO by auto. rewrite response_legendre; auto. apply HZ, nth_In. congruence.
Qed.
Lemma f_pattern_errors N azi zen c : sh_beamformer_from_pattern PUnknown N azi zen = Err ValueError /\
  (length c <> (N + 1)%nat -> sh_beamformer_from_pattern (PWeights c) N azi zen = Err AssertionError).
Proof. split; [reflexivity|]. intros H. unfold sh_beamformer_from_pattern, pattern_weights, assert_. cbn [bind]. rewrite (proj2 (Nat.eqb_neq _ _)) by auto. reflexivity. Qed.
Lemma ex_unit : length [4 * PI / 4; 4 * PI / 4] = (1 + 1)%nat /\ unit_response [4 * PI / 4; 4 * PI / 4] /\ length [1; 2] = length [0; 1] /\ zeniths [1; 2].
Proof.
  pose proof PI_RGT_0. split; auto. split; [unfold unit_response; simpl; field; lra|]. split; auto.
  intros z [<-|[<-|[]]]; pose proof PI2_1; split; lra.
Qed.

(** ** C36 *)
Lemma f_split_default eigh cov w v : eigh cov = (w, v) -> is_eigh cov w v -> (0 < nr cov)%nat ->
  (exists n P Q, estimate_num_sources (fun _ => []) cov None (Some w) = Ok n /\ (n < nr cov)%nat /\
     separate_cov eigh cov None = Ok (P, Q) /\ separate_cov eigh cov (Some (Z.of_nat n)) = Ok (P, Q) /\ splits cov P Q) \/
  (exists e, estimate_num_sources (fun _ => []) cov None (Some w) = Err e /\ separate_cov eigh cov None = Err e).
Proof.
  intros E HE HL. pose proof (separate_default eigh cov w v E HE) as D. unfold estimate_num_sources. destruct (count_from_eigenvalues w None) as [n|e].
  - left. destruct D as (D & Hn). destruct (separate_sum eigh cov (Z.of_nat n) w v E HE ltac:(lia)) as (P & Q & ES & SP). exists n, P, Q. rewrite D. auto 6.
  - right. eauto.
Qed.
Lemma f_noise_eigenvectors A w V k : is_eigh A w V -> (k < nr A)%nat -> forall i, (i < nr A)%nat -> rsum (nr A) (fun j => ent A i j * ent V j k) = nth k w 0 * ent V i k.
Proof. intros (SQ & LW & AS & (RV & CV & O1 & O2) & HA) Hk i Hi. apply (eig_val (nr A) (ent A) (fun k => nth k w 0)); auto. Qed.
Definition diag4 (a b c d : R) : mat := mdiag 4 (fun i => nth i [a; b; c; d] 0).
Lemma lt4 (P : nat -> Prop) : P 0%nat -> P 1%nat -> P 2%nat -> P 3%nat -> forall i, (i < 4)%nat -> P i.
Proof. intros. destruct i as [|[|[|[|i]]]]; auto; lia. Qed.
Lemma lt2 (P : nat -> Prop) : P 0%nat -> P 1%nat -> forall i, (i < 2)%nat -> P i.
Proof. intros. destruct i as [|[|i]]; auto; lia. Qed.
Lemma eye_orthogonal n : orthogonal n (meye n).
Proof.
  assert (D : forall i j, (if Nat.eqb i j then 1 else 0) = delta i j) by (intros; reflexivity).
  split; auto. split; auto. cbn [ent meye mdiag]. split; intros a b Ha Hb.
  - rewrite (rsum_ext n _ (fun i => delta a i * delta i b)) by (intros; rewrite !D, (delta_sym i a); auto). apply (rsum_delta_l n a (fun i => delta i b)). auto.
  - rewrite (rsum_ext n _ (fun i => delta a i * delta i b)) by (intros; rewrite !D, (delta_sym b i); auto). apply (rsum_delta_l n a (fun i => delta i b)). auto.
Qed.
Lemma diag_eigh n w : length w = n -> ascending w -> is_eigh (mdiag n (fun i => nth i w 0)) w (meye n).
Proof.
  intros L A. unfold is_eigh. cbn [nr nc mdiag]. split; auto. split; auto. split; auto. split; [apply eye_orthogonal|]. intros i j Hi Hj. cbn [ent mdiag meye].
  rewrite (rsum_ext n _ (fun k => delta i k * (nth k w 0 * delta j k))) by (intros; unfold delta; ring). rewrite rsum_delta_l by auto. unfold delta. rewrite (Nat.eqb_sym j i).
  destruct (Nat.eqb i j); ring.
Qed.
Lemma ex_split : is_eigh (diag4 1 2 5 9) [1; 2; 5; 9] (meye 4) /\ (1 <= 2 < nr (diag4 1 2 5 9))%nat.
Proof.
  split; [|simpl; lia]. apply diag_eigh; auto. intros i j. cbn [length]. intros [A B]. revert j B A. revert i.
  intros i j Hj. revert i. revert j Hj. apply (lt4 (fun j => forall i, (i <= j)%nat -> nth i [1; 2; 5; 9] 0 <= nth j [1; 2; 5; 9] 0)); intros i Hi; destruct i as [|[|[|[|i]]]]; simpl; try lra; lia.
Qed.
Lemma f_zero_cut_refuted : exists eigh cov w v P Q, eigh cov = (w, v) /\ is_eigh cov w v /\ pos_semidef cov /\
  separate_cov eigh cov None = Ok (P, Q) /\ separate_cov eigh cov (Some 0%Z) = Ok (P, Q) /\ ent P 0 0 = -1 /\ ent Q 0 0 = 1.
Proof.
  set (w := [0; 1]). set (cov := mdiag 2 (fun i => nth i w 0)). set (v := meye 2). exists (fun _ => (w, v)), cov, w, v.
  assert (HE : is_eigh cov w v).
  { apply diag_eigh; auto. intros i j [A B]. revert i A. revert j B. apply (lt2 (fun j => forall i, (i <= j)%nat -> nth i w 0 <= nth j w 0)); intros i Hi; destruct i as [|[|i]]; simpl; try lra; lia. }
  assert (EC : count_from_eigenvalues w None = Ok O).
  { apply (count_low w None (1 + 2 / INR (length w)) (1 / 4)); [simpl; lia|reflexivity| |simpl; lra]. exists (1 / 2). simpl. split; lra. }
  pose proof (separate_default (fun _ => (w, v)) cov w v eq_refl HE) as D. rewrite EC in D. destruct D as (D & _).
  destruct (separate_sum (fun _ => (w, v)) cov 0 w v eq_refl HE ltac:(simpl; lia)) as (P & Q & ES & SP). exists P, Q.
  destruct (separate_zero (fun _ => (w, v)) cov w v P Q eq_refl HE ltac:(simpl; lia) ES) as (_ & _ & HQ & HP).
  split; auto. split; auto. split. { intros x Lx. unfold power, cov, w. cbn [nr mdiag rsum ent]. simpl. nra. }
  split; [rewrite D; exact ES|]. split; auto. split; [rewrite HP by (simpl; lia)|rewrite HQ by (simpl; lia)]; unfold cov, w, delta; simpl; ring.
Qed.

(** ** C37 *)
Lemma f_count_range ev cov a w n : estimate_num_sources ev cov a w = Ok n -> (n <= length (match w with Some w => w | None => ev cov end) - 1)%nat /\ (0 < length (match w with Some w => w | None => ev cov end))%nat.
Proof. intros E. apply count_range in E. lia. Qed.
Lemma f_count_default ev cov a : estimate_num_sources ev cov a None = estimate_num_sources ev cov a (Some (ev cov)).
Proof. reflexivity. Qed.
Lemma f_count_low ev cov w a0 a v : (0 < length w)%nat -> threshold w a0 a -> is_variance w v -> v < a -> estimate_num_sources ev cov a0 (Some w) = Ok O.
Proof. intros. apply (count_low w a0 a v); auto. Qed.
Lemma f_count_jump ev cov w a0 a v c : threshold w a0 a -> is_variance w v -> a <= v -> (S c < length w)%nat ->
  jump w a c -> (forall m, (m < c)%nat -> ~ jump w a m) -> estimate_num_sources ev cov a0 (Some w) = Ok (length w - 1 - c)%nat.
Proof.
  intros HT HV H HC J NJ. destruct (count_many w a0 a v ltac:(lia) HT HV H ltac:(lia)) as (c' & E & Hc' & [(J' & NJ')|(NJ' & ->)]).
  - unfold estimate_num_sources. rewrite E. replace c' with c; auto. destruct (Nat.lt_trichotomy c c') as [L|[L|L]]; auto; exfalso; [apply (NJ' c L J)|apply (NJ c' L J')].
  - exfalso. apply (NJ' c HC J).
Qed.
Lemma f_count_no_jump ev cov w a0 a v : (2 <= length w)%nat -> threshold w a0 a -> is_variance w v -> a <= v -> (forall c, (S c < length w)%nat -> ~ jump w a c) ->
  estimate_num_sources ev cov a0 (Some w) = Ok (length w - 1)%nat.
Proof.
  intros HL HT HV H NJ. destruct (count_many w a0 a v ltac:(lia) HT HV H HL) as (c' & E & Hc' & [(J' & _)|(_ & ->)]); [exfalso; apply (NJ c'); auto; lia|].
  unfold estimate_num_sources. rewrite E. f_equal. lia.
Qed.
Lemma f_count_errors ev cov a0 : estimate_num_sources ev cov a0 (Some []) = Err (match a0 with None => ZeroDivisionError | Some _ => ValueError end) /\
  forall x a, a <= 0 -> estimate_num_sources ev cov (Some a) (Some [x]) = Err ValueError.
Proof.
  split; [apply count_empty|]. intros x a Ha. apply (count_single [x] (Some a) a 0); [simpl; lia|reflexivity| |lra|reflexivity]. exists x. simpl. split; ring.
Qed.
Lemma ex_no_jump : (2 <= length [10; 13])%nat /\ threshold [10; 13] None 2 /\ is_variance [10; 13] (9 / 4) /\ 2 <= 9 / 4 /\ (forall c, (S c < length [10; 13])%nat -> ~ jump [10; 13] 2 c).
Proof.
  split; [simpl; lia|]. split; [unfold threshold; simpl; lra|]. split; [exists (23 / 2); simpl; split; lra|]. split; [lra|].
  intros c Hc. simpl in Hc. assert (c = O) by lia. subst. unfold jump. simpl. lra.
Qed.
Lemma ex_jump : threshold [1; 1; 9] None (1 + 2 / 3) /\ is_variance [1; 1; 9] (128 / 9) /\ 1 + 2 / 3 <= 128 / 9 /\ jump [1; 1; 9] (1 + 2 / 3) 1 /\ (forall m, (m < 1)%nat -> ~ jump [1; 1; 9] (1 + 2 / 3) m).
Proof.
  split; [unfold threshold; simpl; lra|]. split; [exists (11 / 3); simpl; split; lra|]. split; [lra|]. split; [unfold jump; simpl; lra|].
  intros m Hm. assert (m = O) by lia. subst. unfold jump. simpl. lra.
Qed.
Lemma f_scale_refuted : exists w s ev cov, 0 < s /\ ascending w /\ estimate_num_sources ev cov None (Some w) = Ok 0%nat /\
  estimate_num_sources ev cov None (Some (map (fun x => s * x) w)) = Ok 1%nat.
Proof.
  exists [1; 3], 10, (fun _ => []), (meye 0). split; [lra|]. split; [|split].
  - intros i j [A B]. revert i A. revert j B. apply (lt2 (fun j => forall i, (i <= j)%nat -> nth i [1; 3] 0 <= nth j [1; 3] 0)); intros i Hi; destruct i as [|[|i]]; simpl; try lra; lia.
  - apply (f_count_low _ _ [1; 3] None 2 1); [simpl; lia|unfold threshold; simpl; lra| |lra]. exists 2. simpl. split; lra.
  - apply (f_count_jump _ _ [10 * 1; 10 * 3] None 2 100 0); [unfold threshold; simpl; lra| |lra|simpl; lia|unfold jump; simpl; lra|intros; lia]. exists 20. simpl. split; lra.
Qed.

(** ** C38, C39 *)
Lemma eye_pd n : is_symmetric (meye n) /\ pos_def (meye n).
Proof.
  split; [split; [reflexivity|]; intros; cbn [ent meye mdiag]; rewrite (Nat.eqb_sym i j); auto|].
  intros x Lx (i & Hi & Nx). cbn [nr meye mdiag] in *. unfold power. cbn [nr meye mdiag ent].
  rewrite (rsum_ext n _ (fun i => nth i x 0 * nth i x 0)).
  - apply Rlt_le_trans with (nth i x 0 * nth i x 0); [nra|]. apply (rsum_ge_term n (fun i => nth i x 0 * nth i x 0)); auto. intros. nra.
  - intros k Hk. rewrite (rsum_single n k) by (auto; intros l Hl NE; rewrite (proj2 (Nat.eqb_neq k l)) by auto; ring). rewrite Nat.eqb_refl. ring.
Qed.
Lemma ex_mvdr : (exists inv, inv_contract inv) /\ is_symmetric (meye 4) /\ pos_def (meye 4) /\ nr (meye 4) = ((1 + 1) ^ 2)%nat.
Proof. split; [exact inv_exists|]. destruct (eye_pd 4). auto. Qed.
Lemma Y1_row az ze Y azi zen g : sh_matrix 1 azi zen = Ok Y -> length zen = length azi -> (g < length azi)%nat -> nth g azi 0 = az -> nth g zen 0 = ze -> 0 <= ze <= PI ->
  ent Y g 0 = / sqrt (4 * PI) /\ ent Y g 1 = sqrt (3 / (4 * PI)) * vy (sph2cart az ze 1) /\ ent Y g 2 = sqrt (3 / (4 * PI)) * vz (sph2cart az ze 1) /\ ent Y g 3 = sqrt (3 / (4 * PI)) * vx (sph2cart az ze 1).
Proof.
  intros EY HL Hg EA EZ HZ. destruct (sh_matrix_ok 1 azi zen HL) as (Y' & E' & _ & _ & H). rewrite EY in E'. injection E' as <-. pose proof (sin_nonneg ze HZ) as HS.
  destruct (Yz1 (sph2cart az ze 1)) as (A & B & C).
  pose proof (H g 0%nat 0%nat Hg ltac:(lia) ltac:(lia)) as H0. pose proof (H g 1%nat 0%nat Hg ltac:(lia) ltac:(lia)) as H1. pose proof (H g 1%nat 1%nat Hg ltac:(lia) ltac:(lia)) as H2. pose proof (H g 1%nat 2%nat Hg ltac:(lia) ltac:(lia)) as H3.
  rewrite EA, EZ, sh_real_Yz in H0, H1, H2, H3 by auto. change (Z.of_nat 0 - Z.of_nat 0)%Z with 0%Z in H0. change (Z.of_nat 0 - Z.of_nat 1)%Z with (-1)%Z in H1. change (Z.of_nat 1 - Z.of_nat 1)%Z with 0%Z in H2. change (Z.of_nat 2 - Z.of_nat 1)%Z with 1%Z in H3.
  rewrite Yz00 in H0. rewrite A in H1. rewrite B in H2. rewrite C in H3. auto.
Qed.
Lemma s3_pos : 0 < sqrt (3 / (4 * PI)).
Proof. pose proof PI_RGT_0. apply sqrt_lt_R0. apply Rdiv_lt_0_compat; lra. Qed.
Lemma ex_lcmv : exists Y, sh_matrix 1 [0; 0] [PI / 2; 0] = Ok Y /\ independent (length [0; 0]) (nr (meye 4)) (ent Y).
Proof.
  destruct (sh_matrix_ok 1 [0; 0] [PI / 2; 0] eq_refl) as (Y & EY & _). exists Y. split; auto. pose proof PI_RGT_0. pose proof s3_pos as SP.
  destruct (Y1_row 0 (PI / 2) Y _ _ 0 EY eq_refl ltac:(simpl; lia) eq_refl eq_refl ltac:(lra)) as (_ & _ & A2 & A3).
  destruct (Y1_row 0 0 Y _ _ 1 EY eq_refl ltac:(simpl; lia) eq_refl eq_refl ltac:(lra)) as (_ & _ & B2 & B3).
  unfold sph2cart, vx, vz in *. cbn [fst snd] in *. rewrite ?cos_PI2, ?sin_PI2, ?cos_0, ?sin_0 in *.
  intros x Hx g Hg. cbn [nr meye mdiag length] in *. pose proof (Hx 2%nat ltac:(lia)) as X2. pose proof (Hx 3%nat ltac:(lia)) as X3. cbn [rsum] in X2, X3. rewrite A2, B2 in X2. rewrite A3, B3 in X3.
  set (d := sqrt (3 / (4 * PI))) in *. revert g Hg. apply (lt2 (fun g => x g = 0)); apply Rmult_eq_reg_r with d; lra.
Qed.

(** ** C43 *)
Lemma f_span_peak eigh cov num azi zen N P w v g (c : nat -> R) Y : eigh cov = (w, v) -> is_eigh cov w v -> nr cov = ((N + 1) ^ 2)%nat -> length zen = length azi ->
  sh_music eigh cov (Z.of_nat num) azi zen = Ok P -> (1 <= num <= nr cov)%nat -> (g < length azi)%nat -> sh_matrix N azi zen = Ok Y ->
  (forall j, (j < nr cov)%nat -> ent Y g j = rsum num (fun l => c l * ent v j (nr cov - num + l)%nat)) -> nth g P 0 = 100000000000.
Proof.
  intros E HE KN HL EP Hn Hg EY HY. apply (music_peak eigh cov num azi zen N P w v g E HE KN HL EP ltac:(lia) Hg). intros k Hk.
  rewrite (field_steer N azi zen Y) by auto. rewrite <- KN. destruct HE as (SQ & LW & AS & (RV & CV & O1 & O2) & HA).
  rewrite (rsum_ext _ _ (fun j => rsum num (fun l => c l * (ent v j k * ent v j (nr cov - num + l)%nat)))).
  - rewrite rsum_swap. apply rsum_0. intros l Hl. rewrite rsum_scal, O1, delta_diff by lia. ring.
  - intros j Hj. rewrite nth_map_seq by auto. rewrite HY by auto. rewrite <- rsum_scal. apply rsum_ext. intros; ring.
Qed.
(** one source on the z axis, order 1 *)
Definition q3 : R := sqrt 3.
Definition src_cov : mat := mat_of_rows 4 4 [[5 / 4; 0; q3 / 4; 0]; [0; 1; 0; 0]; [q3 / 4; 0; 7 / 4; 0]; [0; 0; 0; 1]].
Definition src_vec : mat := mat_of_rows 4 4 [[q3 / 2; 0; 0; 1 / 2]; [0; 1; 0; 0]; [- 1 / 2; 0; 0; q3 / 2]; [0; 0; 1; 0]].
Lemma ex_music : exists Ys, is_eigh src_cov [1; 1; 1; 2] src_vec /\ sh_matrix 1 [0] [0] = Ok Ys /\
  forall i j, (i < nr src_cov)%nat -> (j < nr src_cov)%nat -> ent src_cov i j = 1 * delta i j + rsum (length [0]) (fun s => nth s [PI] 0 * (ent Ys s i * ent Ys s j)).
Proof.
  pose proof PI_RGT_0 as PP. assert (Q3 : q3 * q3 = 3) by (apply sqrt_sqrt; lra).
  destruct (sh_matrix_ok 1 [0] [0] eq_refl) as (Y & EY & _). exists Y. split; [|split; auto].
  - unfold is_eigh. cbn [nr nc src_cov mat_of_rows length]. split; auto. split; auto. split; [|split].
    + intros i j [A B]. revert i A. revert j B. apply (lt4 (fun j => forall i, (i <= j)%nat -> nth i [1; 1; 1; 2] 0 <= nth j [1; 1; 1; 2] 0)); intros i Hi; destruct i as [|[|[|[|i]]]]; simpl; try lra; lia.
    + split; [reflexivity|]. split; [reflexivity|]. split.
      * intros a b Ha Hb. revert a Ha b Hb. apply (lt4 (fun a => forall b, (b < 4)%nat -> rsum 4 (fun i => ent src_vec i a * ent src_vec i b) = delta a b)); intros b Hb; destruct b as [|[|[|[|b]]]]; try lia;
          unfold src_vec, mat_of_rows, delta; simpl; lra.
      * intros a b Ha Hb. revert a Ha b Hb. apply (lt4 (fun a => forall b, (b < 4)%nat -> rsum 4 (fun i => ent src_vec a i * ent src_vec b i) = delta a b)); intros b Hb; destruct b as [|[|[|[|b]]]]; try lia;
          unfold src_vec, mat_of_rows, delta; simpl; lra.
    + intros i j Hi Hj. revert i Hi j Hj. apply (lt4 (fun i => forall j, (j < 4)%nat -> ent src_cov i j = rsum 4 (fun k => ent src_vec i k * nth k [1; 1; 1; 2] 0 * ent src_vec j k))); intros b Hb; destruct b as [|[|[|[|b]]]]; try lia;
        unfold src_vec, src_cov, mat_of_rows; simpl; lra.
  - destruct (Y1_row 0 0 Y _ _ 0 EY eq_refl ltac:(simpl; lia) eq_refl eq_refl ltac:(lra)) as (B0 & B1 & B2 & B3).
    unfold sph2cart, vx, vy, vz in *. cbn [fst snd] in *. rewrite ?cos_0, ?sin_0 in *.
    assert (SQ1 : / sqrt (4 * PI) * / sqrt (4 * PI) = / (4 * PI)). { rewrite <- Rinv_mult, sqrt_sqrt by lra. reflexivity. }
    assert (SE : sqrt (3 / (4 * PI)) = q3 * / sqrt (4 * PI)). { unfold Rdiv. rewrite sqrt_mult_alt by lra. unfold q3. f_equal. rewrite sqrt_inv. reflexivity. }
    rewrite SE in *. set (k := / sqrt (4 * PI)) in *. assert (PK : PI * (k * k) = 1 / 4). { rewrite SQ1. field. lra. }
    cbn [nr src_cov mat_of_rows length rsum nth]. intros i j Hi Hj. revert i Hi j Hj.
    apply (lt4 (fun i => forall j, (j < 4)%nat -> ent src_cov i j = 1 * delta i j + (0 + PI * (ent Y 0 i * ent Y 0 j)))); intros b Hb; destruct b as [|[|[|[|b]]]]; try lia; rewrite ?B0, ?B1, ?B2, ?B3;
      unfold src_cov, mat_of_rows, delta; simpl; try (ring_simplify; reflexivity); try lra.
    + transitivity (1 * 0 + (0 + PI * (k * k) * q3)); [rewrite PK; field|ring].
    + transitivity (1 * 0 + (0 + PI * (k * k) * q3)); [rewrite PK; field|ring].
    + transitivity (1 * 1 + (0 + PI * (k * k) * (q3 * q3))); [rewrite PK, Q3; field|ring].
Qed.
