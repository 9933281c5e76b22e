(** The default set of HRIRs. *)
From Coq Require Import Lra Lia.
From Verif Require Import Base BaseFacts M_utils M_sig P_sig M_process S_process X_sig X_process M_sph0 M_sph P_sph7 P_sph9 P_sph11 M_grids M_decoder3 M_decoder4 M_parsa2 M_io S_io X_io2 M_io3 S_magls S_io3 P_magls3 P_ctf6.
Open Scope R_scope.

Lemma csum_ext n f g : (forall i, (i < n)%nat -> f i = g i) -> csum n f = csum n g.
Proof. intros H. unfold csum. f_equal; apply rsum_ext; intros i I; rewrite H by exact I; reflexivity. Qed.
Lemma inverse_field F N m azi zen : coefficients F N m -> length zen = length azi -> (2 <= length azi)%nat ->
  exists H, inverse_sht_all F azi zen = Ok H /\ cnr H = length azi /\ cnc H = (m + 1)%nat /\ forall i k, (i < length azi)%nat -> cent H i k = field_bin F N k (nth i azi 0) (nth i zen 0).
Proof.
  intros [R0 C0] L A2. unfold inverse_sht_all. pose proof (sq_ge1 N) as G1. destruct (cnr F) as [|K] eqn:EK; [lia|]. rewrite R0, order_of_sq, Nat2Z.id. unfold inverse_sht_c, sh_matrix_c, dirs_ok. rewrite L, Nat.eqb_refl. cbn [orb bind]. unfold cmatmul. cbn [cnc cnr]. rewrite EK, R0, Nat.min_id, Nat.eqb_refl.
  eexists. split; [reflexivity|]. split; [reflexivity|]. split; [exact C0|]. intros i k I. cbn [cent]. unfold field_bin. unfold csum at 1 2. rewrite !sq2, !rsum_acn.
  assert (BC : bc1 zen i = nth i zen 0) by (unfold bc1; destruct zen as [|z0 [|z1 zen]]; try reflexivity; cbn in L; lia). rewrite BC.
  unfold csum. cbn [fst snd]. f_equal; apply rsum_ext; intros n Hn; apply rsum_ext; intros q Hq; rewrite (acn_nth N n q) by lia; reflexivity.
Qed.
Lemma irfft_field F N m azi zen H : coefficients F N m -> (1 <= m)%nat -> cnr H = length azi -> cnc H = (m + 1)%nat -> (forall i k, (i < length azi)%nat -> cent H i k = field_bin F N k (nth i azi 0) (nth i zen 0)) ->
  exists rows, irfft_rows H = Ok rows /\ holds_field F N m azi zen rows.
Proof.
  intros C M R0 C0 V. unfold irfft_rows. rewrite C0. rewrite (proj2 (Nat.leb_gt _ 1)) by lia. eexists. split; [reflexivity|]. rewrite R0. split; [rewrite map_length, seq_length; reflexivity|]. intros i I. rewrite (nth_indep _ [] (irfft (map (cent H 0) (seq 0 (m + 1))))) by (rewrite map_length, seq_length; exact I). rewrite (map_nth (fun i => irfft (map (cent H i) (seq 0 (m + 1))))), seq_nth by exact I. cbn [Nat.add].
  set (X := map (cent H i) (seq 0 (m + 1))). assert (LX : length X = (m + 1)%nat) by (unfold X; rewrite map_length, seq_length; reflexivity). split; [rewrite length_irfft, LX; lia|]. intros k K. cbv zeta. set (b := field_bin F N k (nth i azi 0) (nth i zen 0)).
  rewrite (dft_synth m (fun k => nth k X (0, 0)) (irfft X) k M K) by (intros t T; rewrite nth_irfft by (rewrite LX; lia); rewrite LX; replace (m + 1 - 1)%nat with m by lia; reflexivity).
  assert (E : nth k X (0, 0) = b). { unfold X. rewrite (nth_indep _ (0, 0) (cent H i 0)) by (rewrite map_length, seq_length; lia). rewrite map_nth, seq_nth by lia. apply V. exact I. }
  rewrite E. reflexivity.
Qed.
Lemma rows_ok n l : (forall i, (i < length l)%nat -> length (nth i l []) = n) -> rows_nd n l = Ok (Nd [length l; n] (concat l)).
Proof. intros H. unfold rows_nd. rewrite (proj2 (forallb_forall _ l)); [reflexivity|]. intros r I. apply Nat.eqb_eq. destruct (In_nth l r [] I) as (i & Hi & <-). apply H. exact Hi. Qed.
Lemma width_ok n (l : list (list R)) : (0 < length l)%nat -> (forall i, (i < length l)%nat -> length (nth i l []) = n) -> width l = n.
Proof. intros P H. destruct l as [|r l]; [cbn in P; lia|]. apply (H 0%nat P). Qed.
(** what is saved is what is loaded *)
Lemma set_loads l r azi zen fs n : length l = length azi -> length r = length azi -> length zen = length azi -> (2 <= length azi)%nat -> n <> 1%nat ->
  (forall i, (i < length azi)%nat -> length (nth i l []) = n) -> (forall i, (i < length azi)%nat -> length (nth i r []) = n) ->
  exists m h, hrir_set l r azi zen fs = Ok m /\ hrirs_of_mat m fs = Ok h /\ h_left h = l /\ h_right h = r /\ h_azi h = azi /\ h_zen h = zen /\ h_fs h = fs /\ h_taps h = n.
Proof.
  intros Ll Lr Lz A2 N1 Hl Hr. unfold hrir_set. rewrite <- Ll in Hl. rewrite <- Lr in Hr. rewrite (width_ok n l), (width_ok n r) by (assumption || lia). rewrite (rows_ok n l Hl), (rows_ok n r Hr). cbn [bind]. set (m := HrirMat _ _ _ _ _ _). exists m.
  assert (FL : Forall (fun q => length q = n) l) by (apply Forall_forall; intros q Q; destruct (In_nth l q [] Q) as (i & Hi & <-); apply Hl; exact Hi).
  assert (FR : Forall (fun q => length q = n) r) by (apply Forall_forall; intros q Q; destruct (In_nth r q [] Q) as (i & Hi & <-); apply Hr; exact Hi).
  unfold hrirs_of_mat. cbn [m k_left k_right k_fs k_rate k_azi k_zen key bind]. rewrite !squeeze2 by lia. rewrite (squeeze_vector (length azi)) by (try lia; right; left; reflexivity). rewrite (squeeze_vector (length azi)) by (try lia; right; left; congruence).
  unfold hrirs_of_nd, nd_len, nd_rows. cbn [shape data bind]. rewrite Ll, Lr, Nat.eqb_refl. cbn [assert_ bind]. unfold hrirs_init. cbn [rows cols]. rewrite !rows_of_length, Nat.eqb_refl. cbn [assert_ bind]. rewrite !asarray_vec by lia. cbn [bind data]. rewrite Lz, Nat.eqb_refl. cbn [assert_ bind h_fs]. rewrite py_int_IZR, Z.eqb_refl. cbn [assert_ bind].
  eexists. split; [reflexivity|]. split; [reflexivity|]. cbn [h_left h_right h_azi h_zen h_fs h_taps]. rewrite <- Ll at 1. rewrite rows_of_concat by exact FL. split; [reflexivity|]. rewrite <- Lr at 1. rewrite rows_of_concat by exact FR. repeat split; reflexivity.
Qed.
