(** plot.py: final forms, witnesses and examples. *)
From Verif Require Import Base BaseFacts M_utils M_sig M_process M_sph0 M_sph M_grids M_decoder M_decoder2 M_decoder3 M_parsa3 M_decoder4 M_process2 M_plot S_sph S_sph2 S_decoder S_decoder2 S_decoder3 S_magls S_ctf S_plot.
From Verif Require Import P_utils P_proc1 P_sig P_dec11 P_plot1 P_plot2 P_plot3 P_plot4 P_plot5 P_plot6 P_plot7 P_parsa2 X_dec1.
Open Scope R_scope.

(** ** C88 *)
Definition ones (n : nat) : list R := repeat 1 n.
Lemma ones_partials n : partials n 1 (fun _ => 0) (fun _ => 0) 0 (ones n).
Proof.
  split; [apply repeat_length|]. intros t Ht. unfold ones. rewrite (nth_indep _ 0 1) by (rewrite repeat_length; exact Ht). rewrite nth_repeat.
  rewrite rsum_0 by (intros; ring). destruct (Nat.even n); ring.
Qed.
Lemma f_mixed : exists cu labels, spectrum [ones 4; ones 5] 1 false false None (YPair 0 2) LNone = Ok (cu, labels) /\
  partials 5 1 (fun _ => 0) (fun _ => 0) 0 (ones 5) /\ nth 0 (nth 1 (cu_mag cu) []) NaN = Fin (5 / 4).
Proof.
  unfold spectrum. assert (L4 : length (ones 4) = 4%nat) by apply repeat_length. assert (L5 : length (ones 5) = 5%nat) by apply repeat_length.
  rewrite L4. cbn [Nat.eqb orb]. replace (Reqb 1 0) with false by (symmetry; apply Reqb_false; lra). cbn [mapM].
  destruct (spec_mag_ok 4 false (ones 4)) as (a & Ea & La); [rewrite L4; lia|]. destruct (spec_mag_ok 4 false (ones 5)) as (b & Eb & Lb); [rewrite L5; lia|].
  rewrite Ea. cbn [bind]. rewrite Eb. cbn [bind]. rewrite L4 in La. rewrite L5 in Lb. change (4 / 2 + 1)%nat with 3%nat in La. change (5 / 2 + 1)%nat with 3%nat in Lb.
  destruct (freq_resp_ok (rfftfreq 4 1) [a; b] false None (YPair 0 2) LNone) as (cu & lb & E & _ & _ & C & _).
  - unfold rfftfreq. rewrite map_length, seq_length. lia.
  - discriminate.
  - unfold rfftfreq. rewrite map_length, seq_length. intros x [<-|[<-|[]]]; assumption.
  - exact I.
  - exists cu, lb. split; [exact E|]. split; [apply ones_partials|]. specialize (C 1%nat). cbn [length nth curve_of] in C. rewrite C by lia.
    unfold spec_mag in Eb. rewrite L5 in Eb. cbn [Nat.eqb] in Eb. injection Eb as <-. cbn [map nth on_axis]. f_equal. replace (2 * PI * 0 / (1 + 1 + 1 + 1 + 1)) with 0 by (unfold Rdiv; ring). rewrite cos_0, sin_0. unfold cabs. cbn [fst snd].
    match goal with |- sqrt ?x / _ = _ => replace x with (Rsqr 5) by (unfold Rsqr; ring) end. rewrite sqrt_Rsqr by lra. lra.
Qed.

(** ** C89 *)
Lemma f_map h lf la lz n todb : float_array h lf n -> float_array h la n -> float_array h lz n -> la <> lf -> la <> lz ->
  exists fig h', spherical_function_map (ARef lf) (ARef la) (ARef lz) todb h = (Ok fig, h') /\
    length (mf_azi fig) = n /\ length (mf_zen fig) = n /\ length (mf_val fig) = n /\
    (forall i, (i < n)%nat -> same_direction (nth i (mf_azi fig) 0) (num h la i) /\ (- PI <= num h la i <= 3 * PI -> - PI <= nth i (mf_azi fig) 0 <= PI) /\
       nth i (mf_zen fig) 0 = num h lz i /\ nth i (mf_val fig) NaN = drawn todb (num h lf i)) /\
    (forall l, l <> la -> nth_error h' l = nth_error h l) /\
    (forall i, (i < n)%nat -> num h' la i = nth i (mf_azi fig) 0) /\
    (forall i, (i < n)%nat -> (num h' la i = num h la i <-> num h la i <= PI)).
Proof.
  intros A B C D E. destruct (map_float h lf la lz n todb A B C D E) as (fig & h' & R & L1 & L2 & L3 & V & K & _ & S).
  exists fig, h'. split; [exact R|]. split; [exact L1|]. split; [exact L2|]. split; [exact L3|]. split; [|split; [exact K|split; [exact S|]]].
  - intros i Hi. destruct (V i Hi) as (-> & V2 & V3). fold (wrap (num h la i)). split; [apply wrap_dir|]. split; [apply wrap_range|]. auto.
  - intros i Hi. rewrite S by exact Hi. destruct (V i Hi) as (-> & _). destruct (Rltb PI (num h la i)) eqn:Q; [apply Rltb_true in Q|apply Rltb_false in Q]; pose proof PI_RGT_0; split; intros; lra.
Qed.
(** azimuths in a list: no array of the caller changes *)
Lemma f_map_list h lf xs lz todb : (lf < length h)%nat -> (lz < length h)%nat -> arrays_kept h (snd (spherical_function_map (ARef lf) (ALst xs) (ARef lz) todb h)).
Proof.
  intros F Z l Hl. unfold spherical_function_map, andthen. unfold asarray_1d_ref at 1. unfold andthen, fetch, alloc, ret, raise.
  destruct (nth_error h lf) as [cf|] eqn:Ef; [|reflexivity]. destruct (asarray_1d (Nd (a_shape cf) (a_data cf))); [|reflexivity].
  unfold asarray_1d_ref at 1. unfold alloc. unfold asarray_1d_ref, andthen, fetch. rewrite nth_error_app1 by exact Z. destruct (nth_error h lz) as [cz|] eqn:Ez; [|cbn [snd]; apply nth_error_app1; exact Hl].
  destruct (asarray_1d (Nd (a_shape cz) (a_data cz))); [|cbn [snd raise]; apply nth_error_app1; exact Hl]. unfold ret, wrap_in_place, andthen, fetch, store.
  rewrite nth_error_app2 by lia. rewrite Nat.sub_diag. cbn [nth_error]. set (c' := set_data _ _). set (hh := upd (h ++ _) (length h) c').
  assert (K : forall l', (l' < length h)%nat -> nth_error hh l' = nth_error h l') by (intros l' Hl'; unfold hh; rewrite nth_error_upd_ne by lia; apply nth_error_app1; exact Hl').
  destruct (nth_error hh lf); [|apply K, Hl]. destruct (nth_error hh (length h)); [|apply K, Hl]. destruct (nth_error hh lz); [|apply K, Hl].
  destruct (_ && _)%bool; unfold ret, raise; cbn [snd]; apply K, Hl.
Qed.
(** an integer array: 4 is drawn at -2 instead of 4 - 2 pi *)
Definition int_heap : heap := [Cell false [1%nat] [1]; Cell true [1%nat] [4]; Cell false [1%nat] [1]].
Lemma pi_bounds : 3 < PI < 7 / 2.
Proof.
  split; [pose proof PI2_3_2; lra|]. pose proof (PI_ineq 1) as (_ & H). unfold tg_alt, PI_tg in H. cbn [sum_f_R0 Nat.mul Nat.add pow INR] in H. lra.
Qed.
Lemma Int_part_is x z : IZR z <= x < IZR z + 1 -> Int_part x = z.
Proof. intros H. destruct (base_Int_part x) as (A & B). assert (IZR (Int_part x) < IZR (z + 1)) by (rewrite plus_IZR; lra). assert (IZR z < IZR (Int_part x + 1)) by (rewrite plus_IZR; lra). apply lt_IZR in H0, H1. lia. Qed.
Lemma trunc_4 : py_int (4 - 2 * PI) = (-2)%Z.
Proof.
  pose proof pi_bounds as P. unfold py_int. destruct (Rleb 0 (4 - 2 * PI)) eqn:E; [apply Rleb_true in E; lra|].
  assert (Q : Int_part (- (4 - 2 * PI)) = 2%Z). { apply Int_part_is. lra. }
  rewrite Q. reflexivity.
Qed.
Lemma f_int : exists h lf la lz fig h', spherical_function_map (ARef lf) (ARef la) (ARef lz) false h = (Ok fig, h') /\
  num h la 0 = 4 /\ nth 0 (mf_azi fig) 0 = -2 /\ ~ same_direction (nth 0 (mf_azi fig) 0) (num h la 0).
Proof.
  exists int_heap, 0%nat, 1%nat, 2%nat. unfold spherical_function_map, asarray_1d_ref, wrap_in_place, andthen, fetch, store, ret, int_heap. cbn [nth_error a_shape a_data a_int].
  repeat (match goal with |- context [asarray_1d (Nd [1%nat] [?x])] => change (Nd [1%nat] [x]) with (arr1 [x]); rewrite (asarray_arr1 [x]) end; cbn [nth_error a_shape a_data a_int map upd]). unfold set_data. cbn [nth_error a_shape a_data a_int map upd].
  pose proof pi_bounds as P. replace (Rltb PI 4) with true by (symmetry; apply Rltb_true; lra). rewrite trunc_4. cbn [nth_error a_data length Nat.eqb andb map]. unfold ret.
  eexists _, _. split; [reflexivity|]. cbn [mf_azi nth]. unfold num. cbn [nth_error a_data nth]. split; [reflexivity|]. split; [reflexivity|].
  intros (A & B). assert (C : cos (4 - -2) = 1). { rewrite cos_minus, A, B. pose proof (sin2_cos2 4) as S. unfold Rsqr in S. lra. }
  replace (4 - -2) with (2 * 3) in C by ring. rewrite cos_2a_sin in C. assert (0 < sin 3) by (apply sin_gt_0; lra). nra.
Qed.
Lemma f_doa h la lz n p m size c alpha fs : float_array h la n -> float_array h lz n -> la <> lz -> (0 < n)%nat -> doa_args n p m c alpha fs ->
  exists pts h', doa la lz p size c alpha fs h = (Ok pts, h') /\ length pts = n /\
    (forall i df, (i < n)%nat -> nth (n - 1 - i) pts df = DoaPoint (num h' la i) (num h lz i) (Some (doa_size p m (snd size) i)) (doa_color c fs i) (doa_alpha alpha i)) /\
    (forall i, (i < n)%nat -> (num h la i <= PI -> num h' la i = num h la i) /\
       (- PI < num h la i <= 2 * PI -> same_direction (num h' la i) (num h la i) /\ - PI < num h' la i <= PI) /\
       (2 * PI < num h la i <= 3 * PI -> num h' la i = num h la i - 3 * PI)) /\
    (forall l, l <> la -> nth_error h' l = nth_error h l).
Proof.
  intros A B C D E. destruct (doa_ok h la lz n p m size c alpha fs A B C D E) as (pts & h' & R & L & V & W & K). exists pts, h'. split; [exact R|]. split; [exact L|]. split; [exact V|]. split; [|exact K].
  intros i Hi. rewrite W by exact Hi. destruct (wrap_d_cases (num h la i)) as (W1 & W2 & W3). split; [exact W1|]. split; [|exact W3]. intros (Q1 & Q2). destruct (Rle_lt_dec (num h la i) PI) as [Q|Q].
  - rewrite W1 by exact Q. split; [apply same_refl|lra].
  - rewrite W2 by lra. pose proof (same_turns (num h la i) (-1)) as S. replace (num h la i + 2 * PI * -1) with (num h la i - 2 * PI) in S by ring. split; [exact S|lra].
Qed.
Definition turn_heap : heap := [Cell false [1%nat] [5 * PI / 2]; Cell false [1%nat] [PI / 2]].
Lemma turn_arrays : float_array turn_heap 0 1 /\ float_array turn_heap 1 1.
Proof. split; eexists; (split; [reflexivity|]); repeat split. Qed.
(** 450 degrees is drawn at -90 degrees *)
Lemma f_opposite : exists pts h', doa 0 1 None (true, 1) None None None turn_heap = (Ok pts, h') /\ num turn_heap 0 0 = 5 * PI / 2 /\
  forall df, dp_azi (nth 0 pts df) = - (PI / 2).
Proof.
  destruct turn_arrays as (A & B). destruct (f_doa turn_heap 0 1 1 None 0 (true, 1) None None None A B) as (pts & h' & E & L & V & W & _); [lia|lia|repeat split; exact I|].
  exists pts, h'. split; [exact E|]. split; [reflexivity|]. intros df. specialize (V 0%nat df ltac:(lia)). cbn [Nat.sub] in V. rewrite V. cbn [dp_azi]. destruct (W 0%nat ltac:(lia)) as (_ & _ & W3).
  assert (N : num turn_heap 0 0 = 5 * PI / 2) by reflexivity. rewrite N in W3. pose proof PI_RGT_0. rewrite W3 by lra. lra.
Qed.
Lemma f_off_map : exists fig, hrirs_ild_itd [- (3 * PI / 2)] [PI / 2] [1] [1] (None, None) = Ok fig /\ nth 0 (if_azi fig) 0 = - (3 * PI / 2).
Proof.
  destruct (ild_ok [- (3 * PI / 2)] [PI / 2] [1] [1] (None, None)) as (fig & m1 & m2 & E & _); [discriminate|discriminate|]. exists fig. split; [exact E|].
  unfold hrirs_ild_itd in E. destruct (sym_lim [1] (fst (None, None))); [|discriminate]. cbn [bind] in E. destruct (sym_lim _ _); [|discriminate]. cbn [bind] in E. injection E as <-. cbn [if_azi map nth].
  unfold fmod. pose proof PI_RGT_0 as P. replace ((- (3 * PI / 2) + PI) / (2 * PI)) with (- (1 / 4)) by (field; lra).
  assert (Q : py_int (- (1 / 4)) = 0%Z). { unfold py_int. destruct (Rleb 0 (- (1 / 4))) eqn:E; [apply Rleb_true in E; lra|]. assert (I : Int_part (- - (1 / 4)) = 0%Z) by (apply Int_part_is; lra). rewrite I. reflexivity. }
  rewrite Q. lra.
Qed.

(** ** C90 *)
Definition last_sample : mat := Mat 1 (2 ^ 16 + 1) (fun _ t => if Nat.eqb t (2 ^ 16) then 1 else 0).
Definition one_dir (_ : Z) : res (list V3) := Ok [(1, 0, 0)].
(** the default limits keep what an earlier call has written into them *)
Lemma f_history ndesign l : calls ndesign (None, None) l =
  (if existsb (fun c => match c with (F, todb, w, n, CDefault) => negb todb && drew ndesign c | _ => false end)%bool l then Some 0 else None, None).
Proof. rewrite calls_history. reflexivity. Qed.
Lemma f_tail : exists fig, sh_rms_map one_dir (None, None) last_sample false None 1 CDefault = (Ok (Some fig), (Some 0, None), CDefault) /\
  (forall i, (i < 7)%nat -> nth i (rf_rms fig) NaN = Fin 0) /\
  forall azi zen, exists t, (t < nc last_sample)%nat /\ beam 0 (weights_drawn 0 None) last_sample azi zen t <> 0.
Proof.
  destruct (map_ok one_dir last_sample 0 [(1, 0, 0)] None 1 eq_refl) with (todb := false) as (azi & zen & v & SH & E).
  - intros p [<-|[]] Z. injection Z. lra.
  - reflexivity.
  - unfold last_sample. cbn [nc]. lia.
  - reflexivity.
  - rewrite E. cbn [fst snd clim_low]. eexists. split; [reflexivity|]. destruct (SH (Some 0) None) as (_ & _ & _ & _ & _ & V). cbn [rf_rms] in *. split.
    + intros i Hi. rewrite V by (cbn [length]; lia). cbn [drawn]. f_equal. unfold root_mean_square. rewrite rsum_0; [unfold Rdiv; rewrite Rmult_0_l; apply sqrt_0|].
      intros t Ht. replace (beam _ _ _ _ _ t) with 0; [ring|]. symmetry. unfold beam. apply rsum_0. intros n Hn. rewrite rsum_0; [ring|]. intros k Hk.
      unfold samples_used, last_sample in Ht. cbn [nc] in Ht. unfold last_sample. cbn [ent]. set (b := (2 ^ 16)%nat) in *. assert (B : (1 < b)%nat) by (unfold b; apply (Nat.pow_gt_1 2 16); lia). clearbody b.
      destruct (Nat.leb_spec (b + 1) b); [lia|]. assert (D : ((b + 1) / b = 1)%nat) by (symmetry; apply (Nat.div_unique (b + 1) b 1 1); lia). rewrite D in Ht.
      destruct (Nat.eqb_spec t b); [lia|]. ring.
    + intros a z. exists (2 ^ 16)%nat. split; [unfold last_sample; cbn [nc]; lia|]. unfold last_sample. generalize (2 ^ 16)%nat. intros b. unfold beam, weights_drawn. cbn [ent]. rewrite Nat.eqb_refl.
      pose proof (sh_00_pos a z) as Q. pose proof PI_RGT_0 as P. change (0 + 1)%nat with 1%nat. unfold rsum. cbn [Nat.mul Nat.add repeat nth Nat.pow]. simpl (INR 1). change (Z.of_nat 0 - Z.of_nat 0)%Z with 0%Z. intros Z. unfold Rdiv in Z. rewrite Rinv_1 in Z. nra.
Qed.
Lemma ex_spectrum : exists cu labels, spectrum [ones 4] 44100 false false None (YRange 60) LNone = Ok (cu, labels) /\
  cu_mag cu = [[Fin 1; Fin 0; Fin 0]] /\ cu_ylim cu = (-59, 1).
Proof.
  destruct (spectrum_ok [ones 4] 4 44100 false false None (YRange 60) LNone) as (cu & lb & E & _ & L & C & (top & (HI & HM) & HY) & _); [discriminate|lia|intros x [<-|[]]; apply repeat_length|lra|exact I|].
  exists cu, lb. split; [exact E|]. specialize (C 0%nat 1 (fun _ => 0) (fun _ => 0) 0 ltac:(cbn; lia) (ones_partials 4)). cbn [curve_of] in C.
  assert (M : cu_mag cu = [[Fin 1; Fin 0; Fin 0]]).
  { destruct (cu_mag cu) as [|r [|r2 t]]; [discriminate L| |discriminate L]. cbn [nth] in C. rewrite C. change (4 / 2 + 1)%nat with 3%nat. cbn [seq map]. unfold amplitude, on_axis. cbn [Nat.eqb Nat.mul Nat.add]. rewrite Rabs_R1, Rabs_R0. repeat f_equal; ring. }
  split; [exact M|]. rewrite M in HI, HM. assert (T : top = 1).
  { destruct (HM _ (Fin 1) (or_introl eq_refl) (or_introl eq_refl)) as (y & [= <-] & Hy). destruct HI as (r & [<-|[]] & [Q|[Q|[Q|[]]]]); injection Q as Q; lra. }
  rewrite HY, T. f_equal; ring.
Qed.
Definition map_heap : heap := [Cell false [2%nat] [1; 2]; Cell false [2%nat] [3 * PI / 2; 0]; Cell false [2%nat] [PI / 2; PI / 2]].
Lemma ex_map : float_array map_heap 0 2 /\ float_array map_heap 1 2 /\ float_array map_heap 2 2.
Proof. repeat split; eexists; (split; [reflexivity|]); repeat split. Qed.
Lemma ex_doa : doa_args 2 (Some [1; 3]) 3 (Some (SArr [1; 2])) None (Some 48000).
Proof. repeat split; cbn; try lra; auto. intros y [<-|[<-|[]]]; lra. Qed.

(** *** C90 *)
Definition dc_signal : mat := Mat 1 1 (fun _ _ => 1).
(** the same call in dB: automatic limits at first, 0 dB at least after a linear call *)
Lemma f_limits : exists fig fig', sh_rms_map one_dir (None, None) dc_signal true None 1 CDefault = (Ok (Some fig), (None, None), CDefault) /\
  rf_vmin fig = None /\
  fst (fst (sh_rms_map one_dir (calls one_dir (None, None) [(dc_signal, false, None, 1%Z, CDefault)]) dc_signal true None 1 CDefault)) = Ok (Some fig') /\ rf_vmin fig' = Some 0.
Proof.
  assert (H1 : forall p, In p [(1, 0, 0)] -> p <> (0, 0, 0)) by (intros p [<-|[]] Z; injection Z; lra).
  destruct (map_ok one_dir dc_signal 0 [(1, 0, 0)] None 1 eq_refl H1 eq_refl ltac:(cbn; lia) eq_refl true) as (azi & zen & v & _ & E).
  destruct (map_ok one_dir dc_signal 0 [(1, 0, 0)] None 1 eq_refl H1 eq_refl ltac:(cbn; lia) eq_refl false) as (azi2 & zen2 & v2 & _ & E2).
  cbn [calls]. rewrite E2. cbn [fst snd clim_low]. rewrite !E. cbn [fst snd clim_low]. eexists _, _. split; [reflexivity|]. split; [reflexivity|]. split; reflexivity.
Qed.
Lemma ex_rms : one_dir 1 = Ok [(1, 0, 0)] /\ (forall p, In p [(1, 0, 0)] -> p <> (0, 0, 0)) /\ nr dc_signal = ((0 + 1) ^ 2)%nat /\ (0 < nc dc_signal)%nat /\ length (weights_drawn 0 None) = 1%nat.
Proof. split; [reflexivity|]. split; [intros p [<-|[]] Z; injection Z; lra|]. split; [reflexivity|]. split; [cbn; lia|reflexivity]. Qed.
Lemma ex_wave : plane_wave 1 10 0 (PI / 2) (fun t => INR t) (Mat 4 10 (fun k t => INR t * sh_real (if Nat.eqb k 0 then 0 else 1) (if Nat.eqb k 0 then 0 else Z.of_nat k - 2) 0 (PI / 2))).
Proof.
  split; [reflexivity|]. split; [reflexivity|]. intros n k t Hn Hk _. cbn [ent]. destruct n as [|[|n]]; [|destruct k as [|[|[|k]]]; cbn in *; try lia; reflexivity|lia].
  destruct k; cbn in *; [reflexivity|lia].
Qed.

(** ** C91 *)
Lemma ex_ls : ls_ok ex_hull.
Proof.
  split.
  - unfold ex_hull, ex_points. cbn [h_d h_points map]. repeat f_equal; unfold norm3, dot3, vx, vy, vz; cbn [fst snd]; rewrite <- sqrt_1 at 1; f_equal; ring.
  - intros p Hp. unfold ex_hull, ex_points in Hp. cbn [h_points In] in Hp. intros ->. intuition (match goal with E : _ = _ |- _ => injection E end; intros; lra).
Qed.
Lemma ex_energy : energy_at ex_hull [1; 2; 2; 0] = 9.
Proof.
  unfold energy_at, at_listener, ex_hull, ex_points. cbn [h_points h_a length]. unfold rsum. cbn [nth]. unfold Rpower.
  assert (N : forall x y z, x * x + y * y + z * z = 1 -> norm3 (x, y, z) = 1) by (intros x y z E; unfold norm3, dot3, vx, vy, vz; cbn [fst snd]; rewrite E; apply sqrt_1).
  rewrite !N by ring. rewrite ln_1, Rmult_0_r, exp_0. field.
Qed.
(** amplitude and energy hold the distance compensation: 2 and 4 for one loudspeaker at 2 m *)
Definition far_hull : hull := Hull [(2, 0, 0)] [2] 1 (0, 0, 0) [] [] [] [] [] [] None None.
Lemma norm_2 : norm3 (2, 0, 0) = 2.
Proof. unfold norm3, dot3, vx, vy, vz. cbn [fst snd]. replace (2 * 2 + 0 * 0 + 0 * 0) with (Rsqr 2) by (unfold Rsqr; ring). apply sqrt_Rsqr. lra. Qed.
Lemma far_ok : ls_ok far_hull.
Proof. split; [cbn [h_d far_hull h_points map]; rewrite norm_2; reflexivity|]. intros p [<-|[]] E. injection E. lra. Qed.
Lemma f_unity lstsq3 pinv svd sa se : exists ms, decoder_performance lstsq3 pinv svd (Setup far_hull None None None) RNls sa se None = (Ok (Some ms), Setup far_hull None None None) /\
  length ms = length (perf_grid sa se) /\ forall i d, (i < length (perf_grid sa se))%nat -> pm_amplitude (nth i ms d) = 2 /\ pm_energy (nth i ms d) = 4.
Proof.
  destruct (nls_ok (Setup far_hull None None None) far_ok ltac:(discriminate) lstsq3 pinv svd sa se) as (ms & E & L & V). exists ms. split; [exact E|]. split; [exact L|].
  intros i d Hi. destruct (V i d Hi) as (l & Hl & _ & _ & _ & A & B). cbn [s_hull far_hull h_points length h_a] in *. assert (l = 0%nat) by lia. subst l. cbn [nth] in A, B. rewrite norm_2, Rpower_1 in A, B by lra. rewrite A, B. split; ring.
Qed.

(** ** C92 *)
Lemma f_transfer : exists mag ph, transfer_function [1000] [(-1, 0)] = Ok (mag, ph) /\ mag = [Fin (-280)] /\ ph = [0] /\ decibel (cabs (-1, 0)) = 0.
Proof.
  destruct (transfer_ok [1000] [(-1, 0)] eq_refl) as (mag & ph & E & L1 & L2 & V). exists mag, ph. split; [exact E|]. destruct (V 0%nat) as (_ & W & _); [cbn; lia|]. cbn [nth fst] in W. destruct W as (W1 & W2); [lra|].
  destruct mag as [|m [|]]; try discriminate L1. destruct ph as [|p [|]]; try discriminate L2. cbn [nth] in W1, W2. subst. split; [reflexivity|]. split; [reflexivity|].
  unfold cabs, decibel. cbn [fst snd]. replace ((-1) ^ 2 + 0 ^ 2) with 1 by ring. rewrite sqrt_1, ln_1. unfold Rdiv. ring.
Qed.
Lemma ex_transfer : length [1000; 2000] = length [(1, 1); (2, -1)] /\ 1 / 100000000000000 < fst (nth 0 [(1, 1); (2, -1)] (0, 0)).
Proof. split; [reflexivity|]. cbn [nth fst]. lra. Qed.

(** ** C93 *)
Definition two_faces : list face := [(0, 1, 2)%nat; (0, 1, 3)%nat].
Lemma f_colors : exists fig, plot_hull (set_valid ex_hull [(0, 1, 3)%nat]) (Some two_faces) true (Some [10; 20]) (Some 2) = Ok fig /\
  hf_valid fig = [(0, 1, 3)%nat] /\ hf_invalid fig = [(0, 1, 2)%nat] /\ hf_color fig = Some [10] /\ nth 1 two_faces (0, 0, 0)%nat = (0, 1, 3)%nat /\ nth 1 [10; 20] 0 = 20.
Proof. eexists. split; [reflexivity|]. repeat split. Qed.
Lemma ex_hull_fig : Forall distinct (h_valid ex_hull) /\ Forall distinct (faces_of ex_hull None) /\ exists fig, plot_hull ex_hull None true None (Some 2) = Ok fig /\ hf_valid fig = h_simplices ex_hull.
Proof.
  assert (D : Forall distinct ex_faces) by (repeat constructor; cbn; lia). split; [exact D|]. split; [exact D|]. eexists. split; reflexivity.
Qed.
Lemma f_dropped : exists cells ticks, sh_bar [[1]; [2]; [3]] 2 = Ok (cells, ticks) /\ length ticks = 2%nat /\ forall c, In c cells -> snd c <> 3.
Proof.
  eexists _, _. split; [reflexivity|]. change (3 / 2)%nat with 1%nat. cbn [seq flat_map linspace map app length combine fst snd nth]. split; [reflexivity|].
  intros c Hc. unfold linspace in Hc. cbn in Hc. repeat destruct Hc as [<-|Hc]; cbn [snd]; try contradiction; intros Q; lra.
Qed.
Lemma f_bar x L g : x <> [] -> (0 < L)%nat -> (0 < g)%nat -> (forall r, In r x -> length r = L) -> Nat.divide g (length x) -> exists cells ticks, sh_bar x g = Ok (cells, ticks) /\
  length ticks = length x /\ (forall r, (r < length x)%nat -> nth r ticks 0 = bar_tick g r) /\ length cells = (length x * L)%nat /\
  forall r l, (r < length x)%nat -> (l < L)%nat -> nth (r * L + l) cells (0, 0%nat, 0) = (bar_tick g r, l, nth l (nth r x []) 0).
Proof.
  intros A B C D (q & Q). destruct (bar_ok x L g A B C D) as (cells & ticks & E & LT & NT & LC & NC). assert (T : length ticks = length x) by (rewrite LT, Q, Nat.div_mul by lia; reflexivity). rewrite T in *.
  exists cells, ticks. auto 6.
Qed.
Lemma ex_bar : exists cells ticks, sh_bar [[1; 2]; [3; 4]] 2 = Ok (cells, ticks) /\ ticks = [- (1 / 4); 1 / 4] /\ nth 3 cells (0, 0%nat, 0) = (1 / 4, 1%nat, 4).
Proof.
  destruct (f_bar [[1; 2]; [3; 4]] 2 2) as (cells & ticks & E & LT & NT & _ & NC); [discriminate|lia|lia|intros r [<-|[<-|[]]]; reflexivity|exists 1%nat; reflexivity|].
  cbn [length] in *. assert (T0 : bar_tick 2 0 = - (1 / 4)) by (unfold bar_tick; cbn; lra). assert (T1 : bar_tick 2 1 = 1 / 4) by (unfold bar_tick; cbn; lra).
  exists cells, ticks. split; [exact E|]. split.
  - destruct ticks as [|a [|b [|]]]; try discriminate LT. pose proof (NT 0%nat ltac:(lia)) as N0. pose proof (NT 1%nat ltac:(lia)) as N1. cbn [nth] in N0, N1. rewrite N0, N1, T0, T1. reflexivity.
  - specialize (NC 1%nat 1%nat ltac:(lia) ltac:(lia)). cbn [Nat.mul Nat.add] in NC. rewrite NC, T1. reflexivity.
Qed.
Lemma ex_balloon : length [1; 0; 0; 1] = ((1 + 1) ^ 2)%nat /\ (0 < length (balloon_grid 5 3))%nat.
Proof.
  split; [reflexivity|]. unfold balloon_grid, linspace. assert (A : (0 < Z.to_nat (py_int (360 / 5)))%nat /\ (0 < Z.to_nat (py_int (180 / 3)))%nat).
  { assert (P : forall x, 1 <= x -> (0 < Z.to_nat (py_int x))%nat). { intros x X. destruct (py_int_nonneg x ltac:(lra)) as (_ & B1 & B2). assert (0 < py_int x)%Z; [|lia]. apply lt_IZR. lra. } split; apply P; lra. }
  destruct A as (A & B). destruct (Z.to_nat (py_int (360 / 5))); [lia|]. destruct (Z.to_nat (py_int (180 / 3))); [lia|]. cbn [seq map flat_map app length]. lia.
Qed.
Lemma ex_steps : 0 < 5 /\ 0 < 3 /\ whole_steps 360 5 72 /\ whole_steps 180 3 60 /\ whole_steps 360 7 51.
Proof. unfold whole_steps. cbn [INR]. repeat split; lra. Qed.
(** a plain number as colour or alpha: no plot, yet the azimuths in the caller's array are wrapped *)
Lemma f_number h la lz n p m size c alpha fs : float_array h la n -> float_array h lz n -> la <> lz -> (0 < n)%nat -> doa_args n p m None None fs ->
  (exists x, c = Some (SNum x)) \/ ((c = None \/ exists l, c = Some (SArr l)) /\ exists x, alpha = Some (SNum x)) ->
  fst (doa la lz p size c alpha fs h) = Err TypeError /\
  forall i, (i < n)%nat -> PI < num h la i <= 2 * PI -> num (snd (doa la lz p size c alpha fs h)) la i = num h la i - 2 * PI.
Proof.
  intros A B C D E F. destruct (doa_number h la lz n p m size c alpha fs A B C D E F) as (G & W). split; [exact G|]. intros i Hi Q. rewrite W by exact Hi.
  destruct (wrap_d_cases (num h la i)) as (_ & W2 & _). apply W2, Q.
Qed.
Lemma f_hull_drawn h ss mark color lim : faces_of h ss <> [] -> h_points h <> [] -> (forall c, color = Some c -> length c = length (faces_of h ss)) -> exists fig, plot_hull h ss mark color lim = Ok fig /\ (forall x, lim = Some x -> hf_lim fig = x).
Proof.
  intros HF HP HC. unfold plot_hull. fold (faces_of h ss).
  set (l := flat_map _ (h_points h)).
  assert (NE : l <> []) by (unfold l; destruct (h_points h); [contradiction|discriminate]). destruct (np_max_ok l NE) as (m & M).
  assert (V : exists vi, (if mark then match faces_of h ss with [] => Err IndexError | _ => Ok (filter (is_simplex_valid (h_valid h)) (faces_of h ss), filter (fun f => negb (is_simplex_valid (h_valid h) f)) (faces_of h ss)) end else Ok (faces_of h ss, [])) = Ok vi).
  { destruct mark; [|eexists; reflexivity]. destruct (faces_of h ss); [contradiction|eexists; reflexivity]. }
  destruct V as (vi & ->). cbn [bind]. destruct color as [c|].
  - rewrite (HC c eq_refl), Nat.eqb_refl. cbn [assert_ bind]. destruct lim as [x|]; cbn [bind]; [eexists; split; [reflexivity|]; intros y [= <-]; reflexivity|]. rewrite M. cbn [bind]. eexists. split; [reflexivity|]. discriminate.
  - cbn [bind]. destruct lim as [x|]; cbn [bind]; [eexists; split; [reflexivity|]; intros y [= <-]; reflexivity|]. rewrite M. cbn [bind]. eexists. split; [reflexivity|]. discriminate.
Qed.
Lemma ex_partials : partials 4 1 (fun _ => 0) (fun _ => 0) 0 [1; 1; 1; 1].
Proof. exact (ones_partials 4). Qed.
Lemma f_label : forall n, 0 < n -> IZR (py_int n) / 8 <> 1 / n.
Proof. exact label_wrong. Qed.
Lemma f_rms ndesign F N vp w_n n_plot (todb : bool) : ndesign n_plot = Ok vp -> (forall p, In p vp -> p <> (0, 0, 0)) -> nr F = ((N + 1) ^ 2)%nat -> (0 < nc F)%nat ->
  length (weights_drawn N w_n) = (N + 1)%nat ->
  exists azi zen v, (forall lo hi, shows_rms F N (samples_used (nc F)) (weights_drawn N w_n) todb vp (RmsFig azi zen v lo hi)) /\
  forall dflt clim, sh_rms_map ndesign dflt F todb w_n n_plot clim =
    match clim with
    | CDefault => (Ok (Some (RmsFig azi zen v (clim_low todb (fst dflt)) (snd dflt))), (clim_low todb (fst dflt), snd dflt), CDefault)
    | CList lo hi => (Ok (Some (RmsFig azi zen v (clim_low todb lo) hi)), dflt, CList (clim_low todb lo) hi)
    | CTuple (Some lo) hi => (Ok (Some (RmsFig azi zen v (Some lo) hi)), dflt, clim)
    | CTuple None hi => (Err TypeError, dflt, clim)
    end.
Proof. intros A B C D E. exact (map_ok ndesign F N vp w_n n_plot A B C D E todb). Qed.
Lemma f_sums h g dir : pm_amplitude (perf_measure h dir g) = lsum g /\ pm_energy (perf_measure h dir g) = lsum (map (fun x => x ^ 2) g).
Proof. exact (sums_ok h g dir). Qed.
Lemma f_vector h g dir : ls_ok h -> length g = length (h_points h) -> dot3 dir dir = 1 -> energy_at h g <> 0 ->
  pm_spread (perf_measure h dir g) = degrees (2 * acos (norm3 (energy_vector h g))) /\
  (1 / 100000000000000 <= norm3 (energy_vector h g) -> pm_error (perf_measure h dir g) = Some (degrees (S_decoder.angle dir (energy_vector h g)))).
Proof. intros HL HG HD HE. split; [exact (spread_ok h HL g HG dir HE)|exact (error_ok h HL g HG dir HD HE)]. Qed.
Lemma f_silent h g dir : ls_ok h -> length g = length (h_points h) -> energy_at h g = 0 -> pm_spread (perf_measure h dir g) = 180 /\ pm_error (perf_measure h dir g) = None.
Proof. intros HL HG. exact (silent_ok h HL g HG dir). Qed.
Lemma f_ranges h g dir : ls_ok h -> length g = length (h_points h) -> dot3 dir dir = 1 ->
  0 <= pm_spread (perf_measure h dir g) <= 180 /\ match pm_error (perf_measure h dir g) with Some e => 0 <= e <= 180 | None => energy_at h g = 0 end.
Proof. intros HL HG HD. exact (ranges_ok h HL g HG dir HD). Qed.
(** all loudspeakers that play lie within the angle [acos c]: so does the energy vector *)
Lemma f_cone h g dir c : ls_ok h -> length g = length (h_points h) -> dot3 dir dir = 1 -> energy_at h g <> 0 -> 0 <= c <= 1 ->
  (forall l, (l < length (h_points h))%nat -> nth l g 0 <> 0 -> c <= dot3 dir (ls_dir h l)) ->
  exists e, pm_error (perf_measure h dir g) = Some e /\ e <= degrees (acos c).
Proof. intros HL HG HD. exact (cone_ok h HL g HG dir HD c). Qed.
Lemma f_single h g dir l : ls_ok h -> length g = length (h_points h) -> dot3 dir dir = 1 -> (l < length (h_points h))%nat -> nth l g 0 <> 0 -> (forall j, (j < length (h_points h))%nat -> j <> l -> nth j g 0 = 0) ->
  pm_amplitude (perf_measure h dir g) = nth l g 0 /\ pm_energy (perf_measure h dir g) = nth l g 0 ^ 2 /\ pm_spread (perf_measure h dir g) = 0 /\
  pm_error (perf_measure h dir g) = Some (degrees (S_decoder.angle dir (nth l (h_points h) (0, 0, 0)))).
Proof. intros HL HG HD. exact (single_ok h HL g HG dir HD l). Qed.
Lemma f_nearest s lstsq3 pinv svd sa se : ls_ok (s_hull s) -> h_points (s_hull s) <> [] ->
  exists ms, decoder_performance lstsq3 pinv svd s RNls sa se None = (Ok (Some ms), s) /\ length ms = length (perf_grid sa se) /\
  forall i d, (i < length (perf_grid sa se))%nat ->
    let dir := grid_dir (nth i (perf_grid sa se) (0, 0)) in let h := s_hull s in
    exists l, (l < length (h_points h))%nat /\
      (forall j, (j < length (h_points h))%nat -> S_decoder.angle dir (nth l (h_points h) (0, 0, 0)) <= S_decoder.angle dir (nth j (h_points h) (0, 0, 0))) /\
      pm_error (nth i ms d) = Some (degrees (S_decoder.angle dir (nth l (h_points h) (0, 0, 0)))) /\ pm_spread (nth i ms d) = 0 /\
      pm_amplitude (nth i ms d) = Rpower (norm3 (nth l (h_points h) (0, 0, 0))) (h_a h) /\
      pm_energy (nth i ms d) = Rpower (norm3 (nth l (h_points h) (0, 0, 0))) (h_a h) ^ 2.
Proof. intros HL NE. exact (nls_ok s HL NE lstsq3 pinv svd sa se). Qed.
Lemma f_vbap s lstsq3 pinv svd sa se : ls_ok (s_hull s) -> lstsq3_contract lstsq3 -> h_vbase (s_hull s) = None ->
  Forall (in_range (length (h_points (s_hull s)))) (h_valid (s_hull s)) -> Forall (independent (h_points (s_hull s))) (h_valid (s_hull s)) ->
  exists ms s', decoder_performance lstsq3 pinv svd s RVbap sa se None = (Ok (Some ms), s') /\ length ms = length (perf_grid sa se) /\
  forall i d, (i < length (perf_grid sa se))%nat ->
    let dir := grid_dir (nth i (perf_grid sa se) (0, 0)) in let h := s_hull s in
    exists row, panning_row (POrd 2) h (h_valid h) dir row /\ nth i ms d = perf_measure h dir row /\
      ((exists f, In f (h_valid h) /\ inside_cone (h_points h) f dir) -> energy_at h row = 1 /\ pm_error (nth i ms d) <> None) /\
      ((forall f g, In f (h_valid h) -> ~ pans (POrd 2) (h_points h) f dir g) -> pm_error (nth i ms d) = None /\ pm_spread (nth i ms d) = 180) /\
      ((forall p, In p (h_points h) -> norm3 p = 1) -> pm_energy (nth i ms d) = 1 \/ pm_energy (nth i ms d) = 0).
Proof. intros HL LC HV IR IN. exact (vbap_perf s HL lstsq3 pinv svd LC HV IR IN sa se). Qed.
Lemma ex_vbap_setup : ls_ok ex_hull /\ (exists lstsq3, lstsq3_contract lstsq3) /\ h_vbase ex_hull = None /\ Forall (in_range (length (h_points ex_hull))) (h_valid ex_hull) /\ Forall (independent (h_points ex_hull)) (h_valid ex_hull) /\
  (forall p, In p (h_points ex_hull) -> norm3 p = 1).
Proof.
  split; [exact ex_ls|]. split; [exists adj_lstsq; exact adj_contract|]. split; [reflexivity|]. split; [exact ex_range|]. split; [exact ex_indep|].
  intros p Hp. unfold ex_hull, ex_points in Hp. cbn [h_points In] in Hp. repeat destruct Hp as [<-|Hp]; try contradiction; unfold norm3, dot3, vx, vy, vz; cbn [fst snd]; (transitivity (sqrt 1); [f_equal; ring|exact sqrt_1]).
Qed.
