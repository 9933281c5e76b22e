(** Property theorems for /repo/spaudiopy/sig.py (C58 - C61). *)
From Verif Require Import Base BaseFacts M_utils S_utils M_sig S_sig X_sig P_sigval.
Open Scope R_scope.

(** ** C58 *)
Theorem C58_mono_trim : forall m start stop dur,
  (0 < m_fs m)%Z -> 0 <= start ->
  0 <= match dur with Some d => start + d | None => stop end ->
  (start < INR (length (m_sig m)) / IZR (m_fs m) ->
     exists m', mono_trim m start stop dur = Ok m' /\ m_fs m' = m_fs m /\
       time_span (m_sig m) (m_fs m) start
         match dur with Some d => start + d | None => stop end (m_sig m')) /\
  (INR (length (m_sig m)) / IZR (m_fs m) <= start ->
     mono_trim m start stop dur = Err AssertionError).
Proof. exact mono_trim_final. Qed.
Print Assumptions C58_mono_trim.

Theorem C58_multi_trim_and_trim_audio : forall m start stop dur c0 cs,
  (0 < mu_fs m)%Z -> channels m = c0 :: cs ->
  (forall c, In c (channels m) -> m_fs c = mu_fs m) -> 0 <= start ->
  let stop' := match dur with Some d => start + d | None => stop end in
  0 <= stop' ->
  trim_audio m start stop' = multi_trim m start stop dur /\
  (start < INR (length (m_sig c0)) / IZR (mu_fs m) ->
     exists m', multi_trim m start stop dur = Ok m' /\ mu_fs m' = mu_fs m /\
       channel_count m' = channel_count m /\
       Forall2 (fun c c' => m_fs c' = m_fs c /\
                            time_span (m_sig c) (mu_fs m) start stop' (m_sig c'))
               (channels m) (channels m')) /\
  (INR (length (m_sig c0)) / IZR (mu_fs m) <= start ->
     multi_trim m start stop dur = Err AssertionError).
Proof. exact multi_trim_final. Qed.
Print Assumptions C58_multi_trim_and_trim_audio.

Theorem C58_negative_start_refuted : exists m m' start stop,
  (0 < m_fs m)%Z /\ start < 0 /\ mono_trim m start stop None = Ok m' /\
  m_sig m = [10; 20; 30] /\ m_fs m = 1%Z /\ start = -1 /\ stop = 3 /\ m_sig m' = [30].
Proof. exact negative_start. Qed.
Print Assumptions C58_negative_start_refuted.

Example C58_nonvacuous :
  let m := Mono [10; 20; 30] 1 in
  (0 < m_fs m)%Z /\ 0 <= 1 /\ 1 < INR (length (m_sig m)) / IZR (m_fs m).
Proof. cbn. repeat split; try lia; lra. Qed.

(** ** C59 *)
Theorem C59_multi_consistent : forall resampler, length_regular resampler ->
  forall (sigs : list (list R)) fs h,
  (2 <= length sigs)%nat -> (forall s t, In s sigs -> In t sigs -> length s = length t) ->
  (forall o, In o h -> admissible (length sigs) o) ->
  exists m, multi_init (map arr1 sigs) (Some fs) = Ok m /\ map m_sig (channels m) = sigs /\
    forall m', run (multi_step resampler) m h = Ok m' -> consistent (length sigs) m'.
Proof. exact multi_consistent. Qed.
Print Assumptions C59_multi_consistent.

Theorem C59_conv_with_too_few_filters_refuted : exists m m' irs,
  consistent 2 m /\ multi_conv m irs = Ok m' /\ ~ consistent 2 m'.
Proof. exact conv_too_few. Qed.
Print Assumptions C59_conv_with_too_few_filters_refuted.

Theorem C59_single_channel_resample_splits : forall resampler l fs fs_new r,
  fs_new <> fs -> resampler fs fs_new l = Ok r -> length r <> 1%nat ->
  multi_resample resampler (Multi [Mono l fs] fs 1) fs_new =
    Ok (Multi (map (fun x => Mono [x] fs_new) r) fs_new (length r)).
Proof. exact single_channel_resample. Qed.
Print Assumptions C59_single_channel_resample_splits.

Theorem C59_ambib_after_init : forall d f a, ambib_init d f = Ok a ->
  map m_sig (channels (base a)) = [aW a; aX a; aY a; aZ a].
Proof. exact ambib_after_init. Qed.
Print Assumptions C59_ambib_after_init.

Theorem C59_ambib_after_resample : forall resampler h f rs a a1 a',
  run (ambib_step resampler) a h = Ok a1 -> f <> mu_fs (base a1) ->
  (forall o, In o rs -> is_resample o) ->
  run (ambib_step resampler) a (h ++ OpResample f :: rs) = Ok a' ->
  map m_sig (channels (base a')) = [aW a'; aX a'; aY a'; aZ a'].
Proof. exact ambib_after_resample. Qed.
Print Assumptions C59_ambib_after_resample.

Theorem C59_ambib_stale_refuted : forall resampler, exists a a' b',
  ambib_init ambi0 (Some 1%Z) = Ok a /\
  ambib_step resampler a (OpTrim 0 1 None) = Ok a' /\
  map m_sig (channels (base a')) = [[1]; [3]; [5]; [7]] /\ aW a' = [1; 2] /\
  ambib_step resampler a (OpConv [arr1 []; arr1 []; arr1 []; arr1 []]) = Ok b' /\
  map m_sig (channels (base b')) = [[]; []; []; []] /\ aW b' = [1; 2].
Proof. exact ambib_stale. Qed.
Print Assumptions C59_ambib_stale_refuted.

Theorem C59_conv_values : (forall m h, exists m', mono_conv m (arr1 h) = Ok m' /\ m_fs m' = m_fs m /\ convolution (m_sig m) h (m_sig m')) /\
  forall m hs, exists m', multi_conv m (map arr1 hs) = Ok m' /\ mu_fs m' = mu_fs m /\ channel_count m' = channel_count m /\ length (channels m') = length (channels m) /\
    forall i c, nth_error (channels m) i = Some c -> exists c', nth_error (channels m') i = Some c' /\ m_fs c' = m_fs c /\
      (forall h, nth_error hs i = Some h -> convolution (m_sig c) h (m_sig c')) /\ (nth_error hs i = None -> c' = c).
Proof. exact conv_value. Qed.
Print Assumptions C59_conv_values.

Theorem C59_resample_values : forall resampler, length_regular resampler -> forall m fs_new,
  consistent (length (channels m)) m -> (2 <= length (channels m))%nat ->
  (fs_new = mu_fs m -> multi_resample resampler m fs_new = Ok m) /\
  (fs_new <> mu_fs m -> forall rs, Forall2 (fun c r => resampler (mu_fs m) fs_new (m_sig c) = Ok r) (channels m) rs ->
     exists m', multi_resample resampler m fs_new = Ok m' /\ mu_fs m' = fs_new /\ channel_count m' = length (channels m) /\ channels m' = map (fun r => Mono r fs_new) rs).
Proof. exact resample_value. Qed.
Print Assumptions C59_resample_values.

Example C59_values_nonvacuous : convolution [1; 2] [3; 4] [3; 10; 8] /\ length_regular copy_resampler /\
  consistent 2 (Multi [Mono [1] 1; Mono [2] 1] 1 2) /\ Forall2 (fun c r => copy_resampler 1 2 (m_sig c) = Ok r) [Mono [1] 1; Mono [2] 1] [[1]; [2]].
Proof. exact values_example. Qed.

Example C59_nonvacuous : exists m m',
  length_regular copy_resampler /\
  (forall o, In o [OpConv [arr1 [2; 1]; arr1 [1; 0]]; OpResample 2] -> admissible 2 o) /\
  multi_init (map arr1 [[1; 2; 3]; [4; 5; 6]]) (Some 1%Z) = Ok m /\
  run (multi_step copy_resampler) m [OpConv [arr1 [2; 1]; arr1 [1; 0]]; OpResample 2] = Ok m' /\
  mu_fs m' = 2%Z.
Proof. exact C59_example. Qed.

(** ** C60 *)
Theorem C60_nearest_is_first_closest : forall l r a z fs h azi zen,
  hrirs_init l r a z fs = Ok h -> h_azi h <> [] ->
  exists k ak zk hl hr, nearest_idx h azi zen = Ok k /\
    nth_error (h_azi h) k = Some ak /\ nth_error (h_zen h) k = Some zk /\
    (forall j a' z', nth_error (h_azi h) j = Some a' -> nth_error (h_zen h) j = Some z' ->
       exists d d', haversine azi zen ak zk 1 = Some d /\ haversine azi zen a' z' 1 = Some d' /\
         d <= d' /\ ((j < k)%nat -> d < d')) /\
    nearest_hrirs h azi zen = Ok (hl, hr) /\
    nth_error (h_left h) k = Some hl /\ nth_error (h_right h) k = Some hr.
Proof. exact nearest_final. Qed.
Print Assumptions C60_nearest_is_first_closest.

Example C60_nonvacuous : exists h,
  hrirs_init (Arr2 [[1]; [2]] 1) (Arr2 [[3]; [4]] 1) (arr1 [0; PI]) (arr1 [PI / 2; PI / 2]) 48000 = Ok h /\
  length (h_azi h) = length (h_zen h) /\ h_azi h <> [] /\
  length (h_left h) = length (h_azi h) /\ length (h_right h) = length (h_azi h).
Proof. exact C60_example. Qed.

(** ** C61 *)
Theorem C61_apply_ignores_the_signal : forall m m' func args,
  m_fs m = m_fs m' -> mono_apply m func args = mono_apply m' func args.
Proof. exact mono_apply_ignores. Qed.
Print Assumptions C61_apply_ignores_the_signal.

Theorem C61_multi_apply_same_in_all_channels : forall m func args m',
  multi_apply m func args = Ok m' ->
  forall c d, In c (channels m') -> In d (channels m') -> m_sig c = m_sig d.
Proof. exact multi_apply_same. Qed.
Print Assumptions C61_multi_apply_same_in_all_channels.

Theorem C61_apply_to_signal_refuted :
  (exists m func v, func [arr1 (m_sig m)] = Ok v /\ mono_apply m func [] = Err TypeError) /\
  (exists m func args v m', func (arr1 (m_sig m) :: args) = Ok v /\
     mono_apply m func args = Ok m' /\ m_sig m' <> data v).
Proof. exact (conj apply_raises apply_wrong_value). Qed.
Print Assumptions C61_apply_to_signal_refuted.

Theorem C61_apply_values : forall func args, (forall m e, func args = Err e -> mono_apply m func args = Err e) /\
  (forall m l, func args = Ok (arr1 l) -> mono_apply m func args = Ok (Mono l (m_fs m))) /\
  (forall m l, func args = Ok (arr1 l) -> multi_apply m func args = Ok (Multi (map (fun c => Mono l (m_fs c)) (channels m)) (mu_fs m) (channel_count m))) /\
  (forall m e, func args = Err e -> channels m <> [] -> multi_apply m func args = Err e).
Proof. exact apply_value. Qed.
Print Assumptions C61_apply_values.

Example C61_nonvacuous : exists m',
  multi_apply (Multi [Mono [1; 2] 1; Mono [3; 4] 1] 1 2) double_all [arr1 [5]] = Ok m' /\
  length (channels m') = 2%nat.
Proof. eexists. split; reflexivity. Qed.
