(** Properties of io.py, part 1: audio files, BRIR files, HRIR sets (C63, C64, C65, C78). *)
From Coq Require Import String Lra Lia.
From Verif Require Import Base M_utils M_sig M_process M_decoder M_decoder2 M_decoder3 M_parsa2 M_grids M_io
  S_process S_decoder3 S_parsa2 S_io P_io1 P_io2 X_dec3 X_parsa2 X_io1 X_io2 X_io3.
Open Scope R_scope.


(** ** C63 *)

Theorem C63_load : forall y d f fs s,
  load_audio y d f fs = Ok s <->
  exists files chans rate, Forall2 (fun n a => d (expanduser y n) = Some a) (name_list f) files /\ Forall2 holds files chans /\
    files <> [] /\ (forall a, In a files -> au_fs a = rate) /\ (fs = None \/ fs = Some rate) /\ s = signal_of rate (concat chans).
Proof. exact load_audio_iff. Qed.
Print Assumptions C63_load.
Theorem C63_rates_disagree : forall y d f fs files a b,
  Forall2 (fun n a => d (expanduser y n) = Some a) (name_list f) files ->
  In a files -> In b files -> au_fs a <> au_fs b -> load_audio y d f fs = Err AssertionError.
Proof. exact load_rates. Qed.
Print Assumptions C63_rates_disagree.
Theorem C63_rate_argument : forall y d f v files,
  Forall2 (fun n a => d (expanduser y n) = Some a) (name_list f) files -> files <> [] ->
  (forall a b, In a files -> In b files -> au_fs a = au_fs b) -> (forall a, In a files -> au_fs a <> v) ->
  load_audio y d f (Some v) = Err ValueError.
Proof. exact load_other_rate. Qed.
Print Assumptions C63_rate_argument.
Theorem C63_missing_file : forall y d f fs n,
  In n (name_list f) -> d (expanduser y n) = None -> load_audio y d f fs = Err RuntimeError.
Proof. exact load_missing. Qed.
Print Assumptions C63_missing_file.
Theorem C63_no_files : forall y d fs,
  load_audio y d (Many []) fs = Err IndexError.
Proof. exact load_nothing. Qed.
Print Assumptions C63_no_files.
Theorem C63_roundtrip : forall y st d m name fs k,
  (2 <= length (channels m))%nat -> (forall c, In c (channels m) -> length (m_sig c) = k) -> (0 < k)%nat ->
  accepts y (length (channels m)) (mu_fs m) = true ->
  exists d' many clip, save_audio y st d (VMulti m) name fs = Ok (d', (many, clip)) /\
    load_audio y d' (One name) None =
      Ok (SMulti (Multi (map (fun c => Mono (map (stored y st) (m_sig c)) (mu_fs m)) (channels m)) (mu_fs m) (length (channels m)))) /\
    (forall n, n <> expanduser y name -> d' n = d n) /\
    (many = true <-> (k < length (channels m))%nat) /\ (clip = true <-> clips (map m_sig (channels m))).
Proof. exact f_multi. Qed.
Print Assumptions C63_roundtrip.
Theorem C63_roundtrip_ambi : forall y st d b name fs k,
  length (channels (base b)) = 4%nat -> (forall c, In c (channels (base b)) -> length (m_sig c) = k) -> (0 < k)%nat ->
  accepts y 4 (mu_fs (base b)) = true ->
  exists d' w, save_audio y st d (VAmbi b) name fs = Ok (d', w) /\
    load_audio y d' (One name) None =
      Ok (SMulti (Multi (map (fun c => Mono (map (stored y st) (m_sig c)) (mu_fs (base b))) (channels (base b))) (mu_fs (base b)) 4)).
Proof. exact f_ambi. Qed.
Print Assumptions C63_roundtrip_ambi.
Theorem C63_roundtrip_mono : forall y st d m name fs,
  m_sig m <> [] -> accepts y 1 (m_fs m) = true ->
  exists d' w, save_audio y st d (VMono m) name fs = Ok (d', w) /\
    load_audio y d' (One name) None = Ok (SMono (Mono (map (stored y st) (m_sig m)) (m_fs m))) /\
    (forall n, n <> expanduser y name -> d' n = d n).
Proof. exact f_mono. Qed.
Print Assumptions C63_roundtrip_mono.
Theorem C63_single_channel : forall y st d m c name fs,
  channels m = [c] -> m_sig c <> [] -> accepts y 1 (mu_fs m) = true ->
  exists d' w, save_audio y st d (VMulti m) name fs = Ok (d', w) /\
    load_audio y d' (One name) None = Ok (SMono (Mono (map (stored y st) (m_sig c)) (mu_fs m))).
Proof. exact f_single. Qed.
Print Assumptions C63_single_channel.
Theorem C63_array : forall y st d k l name rate,
  (2 <= length l)%nat -> (forall x, In x l -> length x = k) -> (0 < k)%nat -> accepts y (length l) rate = true ->
  forall fl, length fl = (k * length l)%nat ->
  (forall i j, (i < k)%nat -> (j < length l)%nat -> nth (i * length l + j) fl 0 = nth i (nth j l []) 0) ->
  exists d' w, save_audio y st d (VArr (Nd [k; length l] fl)) name (Some rate) = Ok (d', w) /\
    load_audio y d' (One name) None = Ok (SMulti (Multi (map (fun x => Mono (map (stored y st) x) rate) l) rate (length l))).
Proof. exact f_array. Qed.
Print Assumptions C63_array.
Theorem C63_array_needs_rate : forall y st d a name,
  save_audio y st d (VArr a) name None = Err ValueError.
Proof. exact f_array_no_rate. Qed.
Print Assumptions C63_array_needs_rate.
Theorem C63_fs_ignored : forall y st d s name fs,
  (forall a, s <> VArr a) -> save_audio y st d s name fs = save_audio y st d s name None.
Proof. exact f_fs_ignored. Qed.
Print Assumptions C63_fs_ignored.
Theorem C63_fs_contradiction_refuted : exists y st d m name fs d' w a, m_fs m <> fs /\ save_audio y st d (VMono m) name (Some fs) = Ok (d', w) /\
  d' name = Some a /\ au_fs a = m_fs m.
Proof. exact ex_fs_contradiction. Qed.
Print Assumptions C63_fs_contradiction_refuted.
Theorem C63_ragged : forall y st d m c c' name fs,
  In c (channels m) -> In c' (channels m) -> length (m_sig c) <> length (m_sig c') ->
  save_audio y st d (VMulti m) name fs = Err ValueError.
Proof. exact f_ragged. Qed.
Print Assumptions C63_ragged.
Theorem C63_silence : forall y st d m name fs,
  (forall c, In c (channels m) -> m_sig c = []) -> save_audio y st d (VMulti m) name fs = Err ValueError.
Proof. exact f_silence. Qed.
Print Assumptions C63_silence.
Example C63_nonvacuous : (2 <= length (channels stereo))%nat /\ (forall c, In c (channels stereo) -> length (m_sig c) = 2%nat) /\
  accepts any_system (length (channels stereo)) (mu_fs stereo) = true.
Proof. exact ex_roundtrip. Qed.
Example C63_nonvacuous_load : exists s, load_audio any_system two_files (Many ["a"; "b"]%string) None = Ok s /\ s = SMulti (Multi [Mono [1; 2] 44100; Mono [0] 44100; Mono [1] 44100] 44100 3).
Proof. exact ex_load. Qed.

(** ** C64 *)

Theorem C64_loudspeaker : forall y st default cpus cs order d name ls h fs hro hr jo jobs d',
  given hro default hr -> given jo (Ok cpus) jobs -> (1 <= jobs)%Z -> (0 < cs)%nat -> full_order 360 cs order ->
  write_ssr_brirs_loudspeaker y st default cpus cs order d name ls h fs hro jo = Ok (Some d') ->
  h_fs hr = fs /\ exists ir a, (forall g, (g < 360)%nat -> binauralize h ls fs (turned g) hr = Ok (Some (ir g))) /\
    only_written d d' (expanduser y (wav_name name)) a /\ brir_file (stored y st) fs (cols ls + h_taps hr - 1) ir a.
Proof. exact f_speakers. Qed.
Print Assumptions C64_loudspeaker.
Theorem C64_loudspeaker_succeeds : forall y st default cpus cs order d name ls h fs hro hr jo jobs ir,
  given hro default hr -> given jo (Ok cpus) jobs -> (1 <= jobs)%Z -> (0 < cs)%nat -> full_order 360 cs order ->
  h_fs hr = fs -> (0 < cols ls + h_taps hr - 1)%nat -> accepts y 720 fs = true ->
  (forall g, (g < 360)%nat -> binauralize h ls fs (turned g) hr = Ok (Some (ir g))) ->
  exists d' a, write_ssr_brirs_loudspeaker y st default cpus cs order d name ls h fs hro jo = Ok (Some d') /\
    only_written d d' (expanduser y (wav_name name)) a /\ brir_file (stored y st) fs (cols ls + h_taps hr - 1) ir a.
Proof. exact f_speakers_ok. Qed.
Print Assumptions C64_loudspeaker_succeeds.
Theorem C64_superposition : forall y st default cpus cs order d name ls h fs hro hr T jo jobs az ze di hl hh loud,
  given hro default hr -> given jo (Ok cpus) jobs -> (1 <= jobs)%Z -> (0 < cs)%nat -> full_order 360 cs order ->
  hrir_set hr T -> (forall g, (g < 360)%nat -> rendered_from h (turned g) hr az ze di (hl g) (hh g)) ->
  h_fs hr = fs -> length (rows ls) = length (h_points h) -> rect ls -> (0 < cols ls)%nat -> accepts y 720 fs = true ->
  (forall c, (c < length (h_points h))%nat -> loud c = true <-> heard (radiated ls (h_a h) di c)) ->
  exists d' a ir, write_ssr_brirs_loudspeaker y st default cpus cs order d name ls h fs hro jo = Ok (Some d') /\
    only_written d d' (expanduser y (wav_name name)) a /\ brir_file (stored y st) fs (cols ls + T - 1) ir a /\
    forall g n, (g < 360)%nat -> (n < cols ls + T - 1)%nat ->
      nth n (fst (ir g)) 0 = rsum (length (h_points h)) (fun c => if loud c : bool then conv_sum (radiated ls (h_a h) di c) (hl g c) n else 0) /\
      nth n (snd (ir g)) 0 = rsum (length (h_points h)) (fun c => if loud c : bool then conv_sum (radiated ls (h_a h) di c) (hh g c) n else 0).
Proof. exact f_superposition. Qed.
Print Assumptions C64_superposition.
Theorem C64_jobs : forall y st default cpus cs order d name ls h fs hro jobs d',
  (1 <= jobs)%Z -> (0 < cs)%nat -> full_order 360 cs order ->
  write_ssr_brirs_loudspeaker y st default cpus cs order d name ls h fs hro (Some jobs) = Ok (Some d') <->
  write_ssr_brirs_loudspeaker y st default cpus cs order d name ls h fs hro (Some 1%Z) = Ok (Some d').
Proof. exact f_jobs. Qed.
Print Assumptions C64_jobs.
Theorem C64_no_workers : forall y st default cpus cs order d name ls h fs hro hr jo jobs,
  given hro default hr -> given jo (Ok cpus) jobs -> (jobs <= 0)%Z -> h_fs hr = fs -> (0 < cols ls + h_taps hr - 1)%nat -> accepts y 720 fs = true ->
  exists d' a, write_ssr_brirs_loudspeaker y st default cpus cs order d name ls h fs hro jo = Ok (Some d') /\
    only_written d d' (expanduser y (wav_name name)) a /\
    brir_file (stored y st) fs (cols ls + h_taps hr - 1) (fun _ => (repeat 0 (cols ls + h_taps hr - 1), repeat 0 (cols ls + h_taps hr - 1))) a.
Proof. exact f_no_workers. Qed.
Print Assumptions C64_no_workers.
Theorem C64_no_workers_refuted : exists y st d name ls h fs hr d' a ir, (forall g, (g < 360)%nat -> binauralize h ls fs (turned g) hr = Ok (Some (ir g))) /\
  nth 0 (fst (ir 0%nat)) 0 = 1 /\
  write_ssr_brirs_loudspeaker y st (Ok hr) 4 1 [] d name ls h fs None (Some 0%Z) = Ok (Some d') /\
  d' "x.wav"%string = Some a /\ nr (au_data a) = 4%nat /\ nc (au_data a) = 720%nat /\
  forall i j, (i < 4)%nat -> (j < 720)%nat -> ent (au_data a) i j = 0.
Proof. exact ex_no_workers. Qed.
Print Assumptions C64_no_workers_refuted.
Theorem C64_sdm : forall y st default d name p phi theta fs hro hr d',
  given hro default hr -> (0 < length p + h_taps hr)%nat ->
  write_ssr_brirs_sdm y st default d name p phi theta fs hro = Ok (Some d') ->
  h_fs hr = fs /\ exists ir a,
    (forall g, (g < 360)%nat -> render_bsdm p (map (fun t => t - fst (turned g)) phi) theta hr 1 (fun _ => O) [] [] = Ok (ir g)) /\
    only_written d d' (expanduser y (wav_name name)) a /\ brir_file (stored y st) fs (length p + h_taps hr - 1) ir a.
Proof. exact f_sdm. Qed.
Print Assumptions C64_sdm.
Theorem C64_sdm_values : forall y st default d name p phi theta fs hro hr T,
  given hro default hr -> hrir_set hr T -> h_fs hr = fs -> p <> [] -> accepts y 720 fs = true ->
  exists d' a ir k, write_ssr_brirs_sdm y st default d name p phi theta fs hro = Ok (Some d') /\
    only_written d d' (expanduser y (wav_name name)) a /\ brir_file (stored y st) fs (length p + T - 1) ir a /\
    forall g, (g < 360)%nat ->
      (forall i, (i < zipped p phi theta)%nat -> closest hr (nth i phi 0 - fst (turned g)) (nth i theta 0) (k g i)) /\
      (forall n, nth n (fst (ir g)) 0 = moving_conv (zipped p phi theta) p (fun i => nth (k g i) (h_left hr) []) n /\
                 nth n (snd (ir g)) 0 = moving_conv (zipped p phi theta) p (fun i => nth (k g i) (h_right hr) []) n).
Proof. exact f_sdm_values. Qed.
Print Assumptions C64_sdm_values.
Theorem C64_file_name : forall n,
  (wav_name n = n \/ wav_name n = append n ".wav") /\ (exists stem, wav_name n = append stem ".wav") /\
  (forall stem, n = append stem ".wav" -> wav_name n = n).
Proof. exact f_wav_name. Qed.
Print Assumptions C64_file_name.
Example C64_nonvacuous : exists az ze di hl hh (loud : nat -> bool),
  given None (Ok one_hrir) one_hrir /\ given None (Ok 4%Z) 4%Z /\ full_order 360 200 two_order /\ hrir_set one_hrir 2 /\
  (forall g, (g < 360)%nat -> rendered_from two_hull (turned g) one_hrir az ze di (hl g) (hh g)) /\
  h_fs one_hrir = 48000%Z /\ length (rows two_sigs) = length (h_points two_hull) /\ rect two_sigs /\ (0 < cols two_sigs)%nat /\ accepts any_system 720 48000 = true /\
  (forall c, (c < length (h_points two_hull))%nat -> loud c = true <-> heard (radiated two_sigs (h_a two_hull) di c)).
Proof. exact ex_speakers. Qed.
Example C64_nonvacuous_sdm : given (Some two_hrirs) (Err FileNotFoundError) two_hrirs /\ hrir_set two_hrirs 2 /\ h_fs two_hrirs = 48000%Z /\ [1; 2] <> [] /\ accepts any_system 720 48000 = true.
Proof. exact ex_sdm. Qed.

(** ** C65 *)

Theorem C65_dummy : forall leggauss fs x g azi zen w,
  leggauss 16%nat = (x, g) -> length x = 16%nat -> (forall y, In y x -> -1 <= y <= 1) ->
  gauss leggauss 15 = (azi, zen, w) -> (0 <= fs <= 327999)%Z ->
  exists h, load_hrirs_dummy leggauss fs = Ok h /\ h_fs h = fs /\ h_taps h = 256%nat /\ num_grid_points h = 512%nat /\
    h_azi h = azi /\ h_zen h = zen /\ length (h_left h) = 512%nat /\ length (h_right h) = 512%nat /\
    forall k, (k < 512)%nat -> exists tl tr,
      delay_tap fs (ear (-1) (nth k azi 0) (nth k zen 0)) tl /\ one_pulse 256 (nth k (h_left h) []) tl (ear 1 (nth k azi 0) (nth k zen 0) + 1 / 10) /\
      delay_tap fs (ear 1 (nth k azi 0) (nth k zen 0)) tr /\ one_pulse 256 (nth k (h_right h) []) tr (ear (-1) (nth k azi 0) (nth k zen 0) + 1 / 10).
Proof. exact f_dummy. Qed.
Print Assumptions C65_dummy.
Theorem C65_any_rate : forall leggauss fs x g azi zen w,
  leggauss 16%nat = (x, g) -> length x = 16%nat -> (forall y, In y x -> -1 <= y <= 1) ->
  gauss leggauss 15 = (azi, zen, w) -> (0 <= fs)%Z ->
  (forall k, (k < length azi)%nat -> ear 1 (nth k azi 0) (nth k zen 0) * (75 / 100000) * IZR fs + 10 < 256 /\ ear (-1) (nth k azi 0) (nth k zen 0) * (75 / 100000) * IZR fs + 10 < 256) ->
  exists h, load_hrirs_dummy leggauss fs = Ok h /\ h_fs h = fs /\ h_taps h = 256%nat /\ num_grid_points h = 512%nat /\
    h_azi h = azi /\ h_zen h = zen /\ length (h_left h) = 512%nat /\ length (h_right h) = 512%nat /\
    forall k, (k < 512)%nat -> exists tl tr,
      delay_tap fs (ear (-1) (nth k azi 0) (nth k zen 0)) tl /\ one_pulse 256 (nth k (h_left h) []) tl (ear 1 (nth k azi 0) (nth k zen 0) + 1 / 10) /\
      delay_tap fs (ear 1 (nth k azi 0) (nth k zen 0)) tr /\ one_pulse 256 (nth k (h_right h) []) tr (ear (-1) (nth k azi 0) (nth k zen 0) + 1 / 10).
Proof. exact f_dummy_any. Qed.
Print Assumptions C65_any_rate.
Theorem C65_raises : forall leggauss fs x g azi zen w k,
  leggauss 16%nat = (x, g) -> length x = 16%nat -> (forall y, In y x -> -1 <= y <= 1) ->
  gauss leggauss 15 = (azi, zen, w) -> (0 <= fs)%Z -> (k < 512)%nat ->
  256 <= 10 + ear (-1) (nth k azi 0) (nth k zen 0) * (75 / 100000) * IZR fs -> load_hrirs_dummy leggauss fs = Err IndexError.
Proof. exact f_dummy_err. Qed.
Print Assumptions C65_raises.
Theorem C65_tight : forall fs,
  (0 <= fs)%Z ->
  ((forall side azi zen t, side = 1 \/ side = -1 -> 0 <= zen <= PI -> delay_tap fs (ear side azi zen) t -> (t < 256)%nat) <-> (fs <= 327999)%Z).
Proof. exact f_dummy_tight. Qed.
Print Assumptions C65_tight.
Example C65_nonvacuous : exists azi zen w, gauss equator 15 = (azi, zen, w) /\ length (fst (equator 16)) = 16%nat /\ (forall y, In y (fst (equator 16)) -> -1 <= y <= 1) /\ (0 <= 48000 <= 327999)%Z.
Proof. exact ex_dummy. Qed.
Example C65_nonvacuous_raises : exists azi zen w k, gauss equator 15 = (azi, zen, w) /\ (k < 512)%nat /\ 256 <= 10 + ear (-1) (nth k azi 0) (nth k zen 0) * (75 / 100000) * IZR 400000.
Proof. exact ex_dummy_err. Qed.

(** ** C78 *)

Theorem C78_rate : forall lg default make fs n h,
  load_hrirs lg default make fs n = Ok h -> h_fs h = fs.
Proof. exact f_file_rate. Qed.
Print Assumptions C78_rate.
Theorem C78_file : forall m fs n t dl dr sa sz da dz rate,
  k_left m = Some (Nd [n; t] dl) -> k_right m = Some (Nd [n; t] dr) -> k_azi m = Some (Nd sa da) -> k_zen m = Some (Nd sz dz) ->
  (2 <= n)%nat -> t <> 1%nat -> vector_shape n sa -> vector_shape n sz -> length da = n -> length dz = n ->
  (k_fs m = Some rate \/ k_fs m = None /\ k_rate m = Some rate) ->
  (py_int rate <> fs -> hrirs_of_mat m fs = Err AssertionError) /\
  (py_int rate = fs -> exists h, hrirs_of_mat m fs = Ok h /\ h_fs h = fs /\ num_grid_points h = n /\ h_taps h = t /\ h_azi h = da /\ h_zen h = dz /\
    length (h_left h) = n /\ length (h_right h) = n /\
    forall g i, (g < n)%nat -> (i < t)%nat -> nth i (nth g (h_left h) []) 0 = nth (g * t + i) dl 0 /\ nth i (nth g (h_right h) []) 0 = nth (g * t + i) dr 0).
Proof. exact f_mat. Qed.
Print Assumptions C78_file.
Theorem C78_one_direction : forall m fs t dl dr,
  k_left m = Some (Nd [1%nat; t] dl) -> k_right m = Some (Nd [1%nat; t] dr) ->
  (forall h, hrirs_of_mat m fs <> Ok h) /\
  forall rate azi zen, k_fs m = Some rate -> k_azi m = Some azi -> k_zen m = Some zen ->
    hrirs_of_mat m fs = Err (if Nat.eqb t 1 then TypeError else AssertionError).
Proof. exact f_mat_single. Qed.
Print Assumptions C78_one_direction.
Theorem C78_default_rates : forall lg default make fs,
  ~ In fs [44100; 48000; 96000]%Z -> load_hrirs lg default make fs Default = Err NotImplementedError.
Proof. exact f_default. Qed.
Print Assumptions C78_default_rates.
Theorem C78_default_kept : forall lg default make fs m,
  In fs [44100; 48000; 96000]%Z -> default fs = Some m -> load_hrirs lg default make fs Default = hrirs_of_mat m fs.
Proof. exact f_default_kept. Qed.
Print Assumptions C78_default_kept.
Example C78_nonvacuous : exists h, hrirs_of_mat two_mat 48000 = Ok h /\ h_left h = [[1; 2]; [3; 4]].
Proof. exact ex_mat. Qed.
