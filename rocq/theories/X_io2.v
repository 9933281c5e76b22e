(** The dummy HRIRs and HRIR files: final forms and examples. *)
From Verif Require Import Base BaseFacts M_utils M_sig M_process M_sph0 M_sph M_grids M_decoder M_decoder2 M_io S_io P_sig P_grids2 P_io3.
From Verif Require X_sig.
Open Scope R_scope.

Lemma hrirs_init_ok L Rr n azi zen fs : length L = length azi -> length Rr = length azi -> length zen = length azi ->
  hrirs_init (Arr2 L n) (Arr2 Rr n) (arr1 azi) (arr1 zen) fs = Ok (Hrirs L Rr azi zen fs (length azi) n).
Proof.
  intros HL HR HZ. unfold hrirs_init. cbn [rows cols]. rewrite HL, HR, Nat.eqb_refl. cbn [assert_ bind].
  assert (A : forall l, exists s, asarray_1d (arr1 l) = Ok (Nd s l)).
  { intro l. unfold asarray_1d, squeeze, arr1. cbn [shape data]. destruct l as [|v [|w t]]; cbn; eexists; reflexivity. }
  destruct (A azi) as (s1 & ->). destruct (A zen) as (s2 & ->). cbn [bind data]. rewrite HZ, Nat.eqb_refl. cbn [assert_ bind]. reflexivity.
Qed.
Lemma dummy_parts leggauss fs azi zen w : gauss leggauss 15 = (azi, zen, w) ->
  load_hrirs_dummy leggauss fs =
  (let* hrir_l := dummy_ear fs (map (dummy_a (-1)) (combine azi zen)) (map (dummy_a 1) (combine azi zen)) in
   let* hrir_r := dummy_ear fs (map (dummy_a 1) (combine azi zen)) (map (dummy_a (-1)) (combine azi zen)) in
   let* h := hrirs_init (Arr2 hrir_l 256) (Arr2 hrir_r 256) (arr1 azi) (arr1 zen) fs in
   let* _ := assert_ (Z.eqb (h_fs h) fs) in Ok h).
Proof. intro E. unfold load_hrirs_dummy. rewrite E. reflexivity. Qed.
Lemma grid_ok leggauss n azi zen w x g : leggauss (n + 1)%nat = (x, g) -> length x = (n + 1)%nat -> (forall y, In y x -> -1 <= y <= 1) ->
  gauss leggauss n = (azi, zen, w) -> length azi = ((n + 1) * (2 * n + 2))%nat /\ length zen = length azi /\ forall z, In z zen -> 0 <= z <= PI.
Proof.
  intros E L B G. unfold gauss in G. rewrite E in G. injection G as <- <- _. split; [rewrite length_tile, length_linspace; reflexivity|].
  split; [rewrite length_tile, length_linspace, length_rep, map_length, L; reflexivity|].
  intros z Hz. apply In_rep in Hz. apply in_map_iff in Hz. destruct Hz as (y & <- & _). apply acos_bound.
Qed.
Lemma dummy_lists azi zen side s : (side = 1 /\ s = -1 \/ side = -1 /\ s = 1) -> length zen = length azi -> (forall z, In z zen -> 0 <= z <= PI) ->
  length (map (dummy_a s) (combine azi zen)) = length azi /\ (forall a, In a (map (dummy_a s) (combine azi zen)) -> 0 <= a <= 1) /\
  (forall g, (g < length azi)%nat -> nth g (map (dummy_a s) (combine azi zen)) 0 = ear side (nth g azi 0) (nth g zen 0)).
Proof.
  intros S L B. assert (E : forall q, dummy_a s q = ear side (fst q) (snd q)).
  { destruct S as [[-> ->]|[-> ->]]; intro q; [apply dummy_left|apply dummy_right]. }
  split; [rewrite map_length, combine_length; lia|]. split.
  - intros a Ha. apply in_map_iff in Ha. destruct Ha as ([u v] & <- & Hq). rewrite E. cbn [fst snd]. apply ear_range; [tauto|]. apply B. apply in_combine_r in Hq. exact Hq.
  - intros g Hg. rewrite (nth_map_in _ _ g 0 (0, 0)) by (rewrite combine_length; lia). rewrite E, nth_combine_in by lia. reflexivity.
Qed.

(** every pulse fits, one per ear and direction *)
Lemma f_dummy_any leggauss fs x g azi zen w : leggauss 16%nat = (x, g) -> length x = 16%nat -> (forall y, In y x -> -1 <= y <= 1) ->
  gauss leggauss 15 = (azi, zen, w) -> (0 <= fs)%Z ->
  (forall k, (k < length azi)%nat -> ear 1 (nth k azi 0) (nth k zen 0) * (75 / 100000) * IZR fs + 10 < 256 /\ ear (-1) (nth k azi 0) (nth k zen 0) * (75 / 100000) * IZR fs + 10 < 256) ->
  exists h, load_hrirs_dummy leggauss fs = Ok h /\ h_fs h = fs /\ h_taps h = 256%nat /\ num_grid_points h = 512%nat /\
    h_azi h = azi /\ h_zen h = zen /\ length (h_left h) = 512%nat /\ length (h_right h) = 512%nat /\
    forall k, (k < 512)%nat -> exists tl tr,
      delay_tap fs (ear (-1) (nth k azi 0) (nth k zen 0)) tl /\ one_pulse 256 (nth k (h_left h) []) tl (ear 1 (nth k azi 0) (nth k zen 0) + 1 / 10) /\
      delay_tap fs (ear 1 (nth k azi 0) (nth k zen 0)) tr /\ one_pulse 256 (nth k (h_right h) []) tr (ear (-1) (nth k azi 0) (nth k zen 0) + 1 / 10).
Proof.
  intros E L B G P F. destruct (grid_ok leggauss 15 azi zen w x g E L B G) as (LA & LZ & BZ). change ((15 + 1) * (2 * 15 + 2))%nat with 512%nat in LA.
  rewrite (dummy_parts _ _ _ _ _ G).
  destruct (dummy_lists azi zen 1 (-1) (or_introl (conj eq_refl eq_refl)) LZ BZ) as (L1 & B1 & N1).
  destruct (dummy_lists azi zen (-1) 1 (or_intror (conj eq_refl eq_refl)) LZ BZ) as (L2 & B2 & N2).
  set (al := map (dummy_a (-1)) (combine azi zen)) in *. set (ar := map (dummy_a 1) (combine azi zen)) in *. clearbody al ar.
  destruct (dummy_ear_ok fs al ar) as (hl & El & Ll & Pl); [lia|exact B1|intros a Ha; apply B2; exact Ha|exact P| |].
  { intros a Ha. destruct (In_nth _ _ 0 Ha) as (k & Hk & <-). rewrite N2 by lia. apply F. lia. }
  destruct (dummy_ear_ok fs ar al) as (hr & Er & Lr & Pr); [lia|exact B2|intros a Ha; apply B1; exact Ha|exact P| |].
  { intros a Ha. destruct (In_nth _ _ 0 Ha) as (k & Hk & <-). rewrite N1 by lia. apply F. lia. }
  rewrite El. cbn [bind]. rewrite Er. cbn [bind]. rewrite hrirs_init_ok by lia. cbn [bind h_fs]. rewrite Z.eqb_refl. cbn [assert_ bind].
  eexists. split; [reflexivity|]. cbn [h_fs h_taps num_grid_points h_azi h_zen h_left h_right]. do 2 (split; [reflexivity|]). split; [exact LA|]. do 2 (split; [reflexivity|]).
  split; [lia|]. split; [lia|]. intros k Hk. destruct (Pl k ltac:(lia)) as (tl & D1 & O1). destruct (Pr k ltac:(lia)) as (tr & D2 & O2).
  rewrite <- N1, <- N2 by lia. exists tl, tr. auto.
Qed.
Lemma f_dummy leggauss fs x g azi zen w : leggauss 16%nat = (x, g) -> length x = 16%nat -> (forall y, In y x -> -1 <= y <= 1) ->
  gauss leggauss 15 = (azi, zen, w) -> (0 <= fs <= 327999)%Z ->
  exists h, load_hrirs_dummy leggauss fs = Ok h /\ h_fs h = fs /\ h_taps h = 256%nat /\ num_grid_points h = 512%nat /\
    h_azi h = azi /\ h_zen h = zen /\ length (h_left h) = 512%nat /\ length (h_right h) = 512%nat /\
    forall k, (k < 512)%nat -> exists tl tr,
      delay_tap fs (ear (-1) (nth k azi 0) (nth k zen 0)) tl /\ one_pulse 256 (nth k (h_left h) []) tl (ear 1 (nth k azi 0) (nth k zen 0) + 1 / 10) /\
      delay_tap fs (ear 1 (nth k azi 0) (nth k zen 0)) tr /\ one_pulse 256 (nth k (h_right h) []) tr (ear (-1) (nth k azi 0) (nth k zen 0) + 1 / 10).
Proof.
  intros E L B G [P1 P2]. apply (f_dummy_any leggauss fs x g azi zen w E L B G P1).
  destruct (grid_ok leggauss 15 azi zen w x g E L B G) as (LA & LZ & BZ). assert (F0 : 0 <= IZR fs <= 327999) by (split; apply IZR_le; assumption).
  assert (C : forall a, 0 <= a <= 1 -> a * (75 / 100000) * IZR fs + 10 < 256) by (intros a Ha; nra).
  intros k Hk. assert (Z0 : 0 <= nth k zen 0 <= PI) by (apply BZ, nth_In; lia). split; apply C, ear_range; auto.
Qed.
(** too high a rate: a pulse outside the taps raises *)
Lemma f_dummy_err leggauss fs x g azi zen w k : leggauss 16%nat = (x, g) -> length x = 16%nat -> (forall y, In y x -> -1 <= y <= 1) ->
  gauss leggauss 15 = (azi, zen, w) -> (0 <= fs)%Z -> (k < 512)%nat ->
  256 <= 10 + ear (-1) (nth k azi 0) (nth k zen 0) * (75 / 100000) * IZR fs -> load_hrirs_dummy leggauss fs = Err IndexError.
Proof.
  intros E L B G P K H. destruct (grid_ok leggauss 15 azi zen w x g E L B G) as (LA & LZ & BZ). change ((15 + 1) * (2 * 15 + 2))%nat with 512%nat in LA.
  rewrite (dummy_parts _ _ _ _ _ G).
  destruct (dummy_lists azi zen 1 (-1) (or_introl (conj eq_refl eq_refl)) LZ BZ) as (L1 & B1 & N1).
  destruct (dummy_lists azi zen (-1) 1 (or_intror (conj eq_refl eq_refl)) LZ BZ) as (L2 & B2 & N2).
  set (al := map (dummy_a (-1)) (combine azi zen)) in *. set (ar := map (dummy_a 1) (combine azi zen)) in *. clearbody al ar.
  rewrite (dummy_ear_err fs al ar (nth k ar 0)); [reflexivity|lia|intros a Ha; apply B2; exact Ha|exact P|apply nth_In; lia|rewrite N2 by lia; lra].
Qed.
(** 327999 Hz is the last rate for which every direction fits *)
Lemma f_dummy_tight fs : (0 <= fs)%Z ->
  ((forall side azi zen t, side = 1 \/ side = -1 -> 0 <= zen <= PI -> delay_tap fs (ear side azi zen) t -> (t < 256)%nat) <-> (fs <= 327999)%Z).
Proof.
  intro P. assert (F0 : 0 <= IZR fs) by (apply (IZR_le 0); exact P). split.
  - intro H. destruct (Z_le_gt_dec fs 327999) as [|C]; [assumption|]. exfalso. assert (C' : 328000 <= IZR fs) by (apply IZR_le; lia).
    assert (E : ear 1 (PI / 2) (PI / 2) = 1) by (unfold ear; rewrite sin_PI2; field).
    set (v := 10 + 75 / 100000 * IZR fs). assert (V : 256 <= v) by (unfold v; lra).
    destruct (py_int_nonneg v ltac:(lra)) as [I1 I2]. specialize (H 1 (PI / 2) (PI / 2) (Z.to_nat (py_int v)) (or_introl eq_refl)). rewrite E in H.
    assert (T : (Z.to_nat (py_int v) < 256)%nat). { apply H; [pose proof PI_RGT_0; lra|]. unfold delay_tap. rewrite INR_IZR_INZ, Z2Nat.id by exact I1. unfold v in I2 |- *. lra. }
    assert (T' : (py_int v < 256)%Z) by lia. apply Z.lt_le_pred in T'. apply IZR_le in T'. change (IZR (Z.pred 256)) with 255 in T'. lra.
  - intros C side azi zen t S B D. assert (C' : IZR fs <= 327999) by (apply IZR_le; exact C). pose proof (ear_range side azi zen S B) as Er. unfold delay_tap in D.
    apply INR_lt. replace (INR 256) with 256 by (rewrite INR_IZR_INZ; reflexivity). nra.
Qed.

(** ** HRIR files *)
Lemma checked (r : res hrirs) fs h : (let* h0 := r in let* _ := assert_ (Z.eqb (h_fs h0) fs) in Ok h0) = Ok h -> h_fs h = fs.
Proof.
  destruct r as [h0|e]; [|discriminate]. cbn [bind]. destruct (Z.eqb_spec (h_fs h0) fs) as [E|E]; [|discriminate]. cbn [assert_ bind]. intro Q. injection Q as <-. exact E.
Qed.
Lemma f_file_rate lg default make fs n h : load_hrirs lg default make fs n = Ok h -> h_fs h = fs.
Proof.
  assert (A : forall m, hrirs_of_mat m fs = Ok h -> h_fs h = fs).
  { intros m. unfold hrirs_of_mat. do 5 (match goal with |- bind ?e _ = _ -> _ => destruct e as [?|?]; [|discriminate] end; cbn [bind]). apply checked. }
  unfold load_hrirs. destruct n as [| |[m|]].
  - unfold load_hrirs_dummy. destruct (gauss lg 15) as [[az ze] w]. do 2 (match goal with |- bind ?e _ = _ -> _ => destruct e as [?|?]; [|discriminate] end; cbn [bind]). apply checked.
  - destruct (existsb _ _); [|discriminate]. destruct (default fs) as [m|]; [apply A|]. destruct make as [d|]; [|discriminate]. cbn [bind]. destruct (d fs) as [m|]; [apply A|discriminate].
  - apply A.
  - discriminate.
Qed.
Lemma squeeze2 {A} n t (l : list A) : n <> 1%nat -> t <> 1%nat -> squeeze (Nd [n; t] l) = Nd [n; t] l.
Proof. intros N T. unfold squeeze. cbn [shape data filter]. rewrite (proj2 (Nat.eqb_neq n 1) N), (proj2 (Nat.eqb_neq t 1) T). reflexivity. Qed.
(** shapes that squeeze to (n,) *)
Lemma squeeze_vector n s (l : list R) : n <> 1%nat -> vector_shape n s -> squeeze (Nd s l) = Nd [n] l.
Proof. intros N V. unfold squeeze. cbn [shape data]. apply Nat.eqb_neq in N. destruct V as [->|[->| ->]]; cbn [filter Nat.eqb negb]; rewrite N; reflexivity. Qed.
Lemma asarray_vec n (l : list R) : n <> 1%nat -> asarray_1d (Nd [n] l) = Ok (Nd [n] l).
Proof. intro N. unfold asarray_1d, squeeze. cbn [shape data filter]. rewrite (proj2 (Nat.eqb_neq n 1) N). reflexivity. Qed.
Lemma rows_of_length {A} m n (l : list A) : length (rows_of m n l) = m.
Proof. revert l. induction m as [|m IH]; intro l; [reflexivity|]. cbn [rows_of length]. rewrite IH. reflexivity. Qed.
Lemma rows_of_nth {A} m n (l : list A) i j d : (i < m)%nat -> (j < n)%nat -> nth j (nth i (rows_of m n l) []) d = nth (i * n + j) l d.
Proof.
  revert l i. induction m as [|m IH]; intros l i Hi Hj; [lia|]. cbn [rows_of]. destruct i as [|i].
  - cbn [nth Nat.mul Nat.add]. rewrite <- (firstn_skipn n l) at 2. destruct (Nat.lt_ge_cases j (length (firstn n l))) as [H|H].
    + rewrite app_nth1 by exact H. reflexivity.
    + rewrite (nth_overflow (firstn n l)) by exact H. rewrite firstn_length in H. rewrite firstn_skipn. symmetry. apply nth_overflow. lia.
  - cbn [nth]. rewrite IH by lia. replace (S i * n + j)%nat with (n + (i * n + j))%nat by lia. symmetry. rewrite <- nth_skipn. reflexivity.
Qed.
Lemma f_mat m fs n t dl dr sa sz da dz rate :
  k_left m = Some (Nd [n; t] dl) -> k_right m = Some (Nd [n; t] dr) -> k_azi m = Some (Nd sa da) -> k_zen m = Some (Nd sz dz) ->
  (2 <= n)%nat -> t <> 1%nat -> vector_shape n sa -> vector_shape n sz -> length da = n -> length dz = n ->
  (k_fs m = Some rate \/ k_fs m = None /\ k_rate m = Some rate) ->
  (py_int rate <> fs -> hrirs_of_mat m fs = Err AssertionError) /\
  (py_int rate = fs -> exists h, hrirs_of_mat m fs = Ok h /\ h_fs h = fs /\ num_grid_points h = n /\ h_taps h = t /\ h_azi h = da /\ h_zen h = dz /\
    length (h_left h) = n /\ length (h_right h) = n /\
    forall g i, (g < n)%nat -> (i < t)%nat -> nth i (nth g (h_left h) []) 0 = nth (g * t + i) dl 0 /\ nth i (nth g (h_right h) []) 0 = nth (g * t + i) dr 0).
Proof.
  intros KL KR KA KZ N T VA VZ LA LZ KF. unfold hrirs_of_mat. rewrite KL, KR, KA, KZ. cbn [key bind].
  assert (EF : match k_fs m with Some f => Ok f | None => key (k_rate m) end = Ok rate) by (destruct KF as [->|[-> ->]]; reflexivity). rewrite EF. cbn [bind].
  rewrite !squeeze2 by lia. rewrite (squeeze_vector n sa), (squeeze_vector n sz) by (auto; lia).
  unfold hrirs_of_nd, nd_len, nd_rows. cbn [shape data bind]. rewrite Nat.eqb_refl. cbn [assert_ bind]. unfold hrirs_init. cbn [rows cols].
  rewrite !rows_of_length, Nat.eqb_refl. cbn [assert_ bind]. rewrite !asarray_vec by lia. cbn [bind data]. rewrite LA, LZ, Nat.eqb_refl. cbn [assert_ bind h_fs].
  split.
  - intro D. apply Z.eqb_neq in D. rewrite D. reflexivity.
  - intros <-. rewrite Z.eqb_refl. cbn [assert_ bind]. eexists. split; [reflexivity|]. cbn [h_fs num_grid_points h_taps h_azi h_zen h_left h_right].
    do 5 (split; [reflexivity|]). split; [apply rows_of_length|]. split; [apply rows_of_length|]. intros g i Hg Hi. split; apply rows_of_nth; assumption.
Qed.
(** a file with one direction cannot be loaded: np.squeeze drops its first axis *)
Lemma f_mat_single m fs t dl dr : k_left m = Some (Nd [1%nat; t] dl) -> k_right m = Some (Nd [1%nat; t] dr) ->
  (forall h, hrirs_of_mat m fs <> Ok h) /\
  forall rate azi zen, k_fs m = Some rate -> k_azi m = Some azi -> k_zen m = Some zen ->
    hrirs_of_mat m fs = Err (if Nat.eqb t 1 then TypeError else AssertionError).
Proof.
  intros KL KR.
  assert (E : forall a z f, hrirs_of_nd (squeeze (Nd [1%nat; t] dl)) (squeeze (Nd [1%nat; t] dr)) a z f = Err (if Nat.eqb t 1 then TypeError else AssertionError)).
  { intros a z f. unfold squeeze at 1 2. cbn [shape data filter Nat.eqb negb]. destruct (Nat.eqb t 1) eqn:T; [reflexivity|].
    unfold hrirs_of_nd, nd_len, nd_rows. cbn [shape negb bind]. rewrite Nat.eqb_refl. reflexivity. }
  split.
  - intros h. unfold hrirs_of_mat. rewrite KL, KR. cbn [key bind]. do 3 (match goal with |- bind ?e _ <> _ => destruct e as [?|?]; [|discriminate] end; cbn [bind]).
    rewrite E. discriminate.
  - intros rate azi zen KF KA KZ. unfold hrirs_of_mat. rewrite KL, KR, KF, KA, KZ. cbn [key bind]. rewrite E. reflexivity.
Qed.
Lemma f_default lg default make fs : ~ In fs [44100; 48000; 96000]%Z -> load_hrirs lg default make fs Default = Err NotImplementedError.
Proof.
  intro N. unfold load_hrirs. destruct (existsb (Z.eqb fs) [44100; 48000; 96000]%Z) eqn:E; [|reflexivity]. exfalso. apply N.
  apply existsb_exists in E. destruct E as (v & I & Q). apply Z.eqb_eq in Q. subst v. exact I.
Qed.
(** the default set is made at most once: a file that exists is read *)
Lemma f_default_kept lg default make fs m : In fs [44100; 48000; 96000]%Z -> default fs = Some m -> load_hrirs lg default make fs Default = hrirs_of_mat m fs.
Proof.
  intros I D. unfold load_hrirs. assert (E : existsb (Z.eqb fs) [44100; 48000; 96000]%Z = true) by (apply existsb_exists; exists fs; split; [exact I|apply Z.eqb_refl]).
  rewrite E, D. reflexivity.
Qed.

(** ** examples *)
Definition equator (n : nat) : list R * list R := (repeat 0 n, repeat (2 / INR n) n).
Lemma ex_dummy : exists azi zen w, gauss equator 15 = (azi, zen, w) /\ length (fst (equator 16)) = 16%nat /\ (forall y, In y (fst (equator 16)) -> -1 <= y <= 1) /\ (0 <= 48000 <= 327999)%Z.
Proof.
  destruct (gauss equator 15) as [[azi zen] w]. exists azi, zen, w. split; [reflexivity|]. split; [apply repeat_length|]. split; [|lia].
  intros y Hy. apply repeat_spec in Hy. subst y. lra.
Qed.
(** on the equator a rate of 400 kHz is too high *)
Lemma ex_dummy_err : exists azi zen w k, gauss equator 15 = (azi, zen, w) /\ (k < 512)%nat /\ 256 <= 10 + ear (-1) (nth k azi 0) (nth k zen 0) * (75 / 100000) * IZR 400000.
Proof.
  destruct (gauss equator 15) as [[azi zen] w] eqn:G. exists azi, zen, w, 24%nat. split; [reflexivity|]. split; [lia|].
  pose proof (f_equal (fun q => fst (fst q)) G) as GA. pose proof (f_equal (fun q => snd (fst q)) G) as GZ.
  change (np_tile (linspace0 (2 * PI) (2 * 15 + 2)) (15 + 1) = azi) in GA. change (np_repeat (map acos (repeat 0 (15 + 1))) (2 * 15 + 2) = zen) in GZ. subst azi zen.
  assert (LL : length (linspace0 (2 * PI) (2 * 15 + 2)) = 32%nat) by apply length_linspace.
  assert (A : nth 24 (np_tile (linspace0 (2 * PI) (2 * 15 + 2)) (15 + 1)) 0 = 3 * (PI / 2)).
  { pose proof (nth_tile (linspace0 (2 * PI) (2 * 15 + 2)) (15 + 1) 0 24 0 ltac:(rewrite LL; lia) ltac:(lia)) as Q. rewrite Nat.mul_0_l, Nat.add_0_l in Q. rewrite Q.
    rewrite nth_linspace by lia. rewrite !INR_IZR_INZ. change (Z.of_nat 24) with 24%Z. change (Z.of_nat (2 * 15 + 2)) with 32%Z. field. }
  assert (B : nth 24 (np_repeat (map acos (repeat 0 (15 + 1))) (2 * 15 + 2)) 0 = PI / 2).
  { pose proof (nth_rep (map acos (repeat 0 (15 + 1))) (2 * 15 + 2) 0 24 0 ltac:(lia) ltac:(cbn; lia)) as Q. rewrite Nat.mul_0_l, Nat.add_0_l in Q. rewrite Q. cbn [repeat map nth Nat.add]. apply acos_0. }
  rewrite A, B. unfold ear. rewrite sin_PI2, sin_3PI2. lra.
Qed.
Definition two_mat : hrirmat := HrirMat (Some (Nd [2; 2]%nat [1; 2; 3; 4])) (Some (Nd [2; 2]%nat [5; 6; 7; 8])) None (Some (IZR 48000)) (Some (Nd [1; 2]%nat [0; 1])) (Some (Nd [2; 1]%nat [1; 1])).
Lemma ex_mat : exists h, hrirs_of_mat two_mat 48000 = Ok h /\ h_left h = [[1; 2]; [3; 4]].
Proof.
  eexists. split; [|shelve]. unfold hrirs_of_mat, hrirs_of_nd, hrirs_init. cbn [k_left k_right k_fs k_rate k_azi k_zen two_mat key bind]. rewrite X_sig.py_int_IZR. reflexivity.
  Unshelve. reflexivity.
Qed.
