(** Properties of recursive filters, the A-to-B format conversion and the default set of
    HRIRs (C97, C98). *)
From Coq Require Import String.
From Verif Require Import Base M_utils M_sig M_process S_process M_sph0 M_sph M_grids M_decoder M_decoder2 M_decoder3 M_decoder4 M_parsa2 M_io M_io3 S_magls S_io3 M_process3 S_process3 P_lfilter P_ambeo X_ambeo X_io7.
Open Scope R_scope.


(** ** C97 *)

Theorem C97_difference_equation : forall b a x, nth 0 a 0 <> 0 -> b <> [] -> (x <> [] \/ (1 < length a)%nat) ->
  exists y, lfilter b a x = Ok y /\ difference_equation b a x y /\ forall y', difference_equation b a x y' -> y' = y.
Proof. exact f_lfilter. Qed.
Print Assumptions C97_difference_equation.
Theorem C97_lfilter_result : forall b a x y, lfilter b a x = Ok y -> difference_equation b a x y.
Proof. exact f_lfilter_inv. Qed.
Print Assumptions C97_lfilter_result.
Theorem C97_impulse_response : forall b a x y h, x <> [] -> lfilter b a x = Ok y -> lfilter b a (1 :: repeat 0 (length x - 1)) = Ok h ->
  forall n, (n < length x)%nat -> nth n y 0 = rsum (S n) (fun k => nth k h 0 * nth (n - k) x 0).
Proof. exact f_impulse. Qed.
Print Assumptions C97_impulse_response.
Theorem C97_linear : forall b a n (xs : nat -> list R) (ys : nat -> list R) (c : nat -> R) m x y,
  (forall i, (i < m)%nat -> length (xs i) = n /\ lfilter b a (xs i) = Ok (ys i)) -> length x = n -> (forall t, (t < n)%nat -> nth t x 0 = rsum m (fun i => c i * nth t (xs i) 0)) -> lfilter b a x = Ok y ->
  length y = n /\ forall t, (t < n)%nat -> nth t y 0 = rsum m (fun i => c i * nth t (ys i) 0).
Proof. exact f_linear. Qed.
Print Assumptions C97_linear.
Theorem C97_lfilter_errors : forall b a x e, lfilter b a x = Err e -> a = [] \/ b = [] \/ nth 0 a 0 = 0 \/ (x = [] /\ length a = 1%nat).
Proof. exact f_lfilter_errors. Qed.
Print Assumptions C97_lfilter_errors.
Theorem C97_b_format : forall d A n s, capsules A n s -> (0 < n)%nat ->
  exists x, ambeo_a2b d A None = Ok x /\ mu_fs (base x) = mu_fs A /\ map m_sig (channels (base x)) = [aW x; aX x; aY x; aZ x] /\ forall i, (i < 4)%nat -> sampled n (b_of s i) (attribute x i).
Proof. exact f_ambeo. Qed.
Print Assumptions C97_b_format.
Theorem C97_only_four : forall d A f x, ambeo_a2b d A f = Ok x -> exists n, (0 < n)%nat /\ capsules A n (fun i t => nth t (m_sig (nth i (channels A) (Mono [] 0))) 0).
Proof. exact f_ambeo_inv. Qed.
Print Assumptions C97_only_four.
Theorem C97_filtered : forall d A n s name b0 a0 b1 a1, capsules A n s -> (0 < n)%nat -> d name = Some [b0; a0; b1; a1] -> nth 0 a0 0 <> 0 -> nth 0 a1 0 <> 0 -> b0 <> [] -> b1 <> [] ->
  exists u x, ambeo_a2b d A None = Ok u /\ ambeo_a2b d A (Some name) = Ok x /\ base x = base u /\ difference_equation b0 a0 (aW u) (aW x) /\ forall i, (1 <= i < 4)%nat -> difference_equation b1 a1 (attribute u i) (attribute x i).
Proof. exact f_filtered. Qed.
Print Assumptions C97_filtered.
Theorem C97_channels_unfiltered : forall d A name u x, ambeo_a2b d A None = Ok u -> ambeo_a2b d A (Some name) = Ok x -> base x = base u.
Proof. exact f_filtered_channels. Qed.
Print Assumptions C97_channels_unfiltered.
Theorem C97_capsules : forall d A n s name b0 a0 b1 a1 A0 A1 f0 f1 x, capsules A n s -> (0 < n)%nat -> d name = Some [b0; a0; b1; a1] -> ambeo_a2b d A (Some name) = Ok x ->
  capsules A0 n f0 -> (forall i, (i < 4)%nat -> lfilter b0 a0 (m_sig (nth i (channels A) (Mono [] 0))) = Ok (m_sig (nth i (channels A0) (Mono [] 0)))) ->
  capsules A1 n f1 -> (forall i, (i < 4)%nat -> lfilter b1 a1 (m_sig (nth i (channels A) (Mono [] 0))) = Ok (m_sig (nth i (channels A1) (Mono [] 0)))) ->
  exists x0 x1, ambeo_a2b d A0 None = Ok x0 /\ ambeo_a2b d A1 None = Ok x1 /\ aW x = aW x0 /\ aX x = aX x1 /\ aY x = aY x1 /\ aZ x = aZ x1.
Proof. exact f_capsule_filters. Qed.
Print Assumptions C97_capsules.
Theorem C97_stereo_panned : forall x azi zen fs, exists s l r,
  ambib_init (map (fun i => arr1 (mat_row (src_to_b x [azi] [zen]) i)) [0; 1; 2; 3]%nat) (Some fs) = Ok s /\ b_to_stereo_sig s = Ok (l, r) /\ length l = length x /\ length r = length x /\
  forall t, (t < length x)%nat -> let u := sph2cart azi zen 1 in
    nth t l 0 = nth t x 0 * (1 + dot3 u (sph2cart (PI / 4) (PI / 2) 1)) /\ nth t r 0 = nth t x 0 * (1 + dot3 u (sph2cart (- (PI / 4)) (PI / 2) 1)).
Proof. exact x_stereo. Qed.
Print Assumptions C97_stereo_panned.
Theorem C97_stereo : forall d A n s, capsules A n s -> (0 < n)%nat -> exists x l r, ambeo_a2b d A None = Ok x /\ b_to_stereo_sig x = Ok (l, r) /\ length l = n /\ length r = n /\
  forall t, (t < n)%nat -> nth t l 0 + nth t r 0 = 2 * b_of s 0 t + sqrt 2 * b_of s 1 t /\ nth t l 0 - nth t r 0 = sqrt 2 * b_of s 2 t.
Proof. exact x_ambeo_stereo. Qed.
Print Assumptions C97_stereo.
Theorem C97_filters_reach_channels_refuted : exists d A name x g, ambeo_a2b d A (Some name) = Ok x /\ get_signals (base x) = Ok g /\ nth 0 (snd g) [] <> aW x.
Proof. exact f_unfiltered_channels. Qed.
Print Assumptions C97_filters_reach_channels_refuted.
Example C97_nonvacuous : capsules ones 2 (fun _ _ => 1) /\ (0 < 2)%nat /\ ex_pickle "f"%string = Some [[2]; [1; -1/2]; [1; 1]; [4]] /\ nth 0 [1; -1/2] 0 <> 0 /\ nth 0 [4] 0 <> 0 /\ b_of (fun _ _ => 1) 0 0 = 4 * PI.
Proof. exact ex_ambeo. Qed.
Example C97_lfilter_nonvacuous : exists y, lfilter [2; 1] [2; -1] [4; 0; 0] = Ok y /\ y = [4; 4; 2].
Proof. exact ex_lfilter. Qed.
Example C97_impulse_nonvacuous : exists y h, lfilter [2; 1] [2; -1] [4; 0; 0] = Ok y /\ lfilter [2; 1] [2; -1] (1 :: repeat 0 (length [4; 0; 0] - 1)) = Ok h /\ h = [1; 1; 1 / 2].
Proof. exact ex_impulse. Qed.
Example C97_capsules_nonvacuous : exists A1, capsules A1 2 (fun i t => match t with 0%nat => 1/4 | _ => 1/2 end) /\ forall i, (i < 4)%nat -> lfilter [1; 1] [4] (m_sig (nth i (channels ones) (Mono [] 0))) = Ok (m_sig (nth i (channels A1) (Mono [] 0))).
Proof. exact ex_capsule_filters. Qed.

(** ** C98 *)

Theorem C98_default_set : forall lg rs cpus cs orders found download azi_o zen_o jobs_o f azi zen N m L48 L96,
  (found = Some f \/ found = None /\ download = Ok (Some f)) ->
  (azi_o = Some azi /\ zen_o = Some zen \/ azi_o = None /\ zen_o = None /\ exists w, gauss lg 35 = (azi, zen, w)) ->
  length zen = length azi -> (2 <= length azi)%nat -> coefficients (fb_left f) N m -> coefficients (fb_right f) N m -> (1 <= m)%nat ->
  (1 <= match jobs_o with Some j => j | None => cpus end)%Z -> (0 < cs)%nat -> (forall k, full_order (length azi) cs (orders k)) ->
  resamples (rs (fb_rate f) 48000%Z) (2 * m) L48 -> resamples (rs (fb_rate f) 96000%Z) (2 * m) L96 -> (2 <= L48)%nat -> (2 <= L96)%nat ->
  exists d l r, get_default_hrirs lg rs cpus cs orders found download azi_o zen_o jobs_o = Ok d /\ holds_field (fb_left f) N m azi zen l /\ holds_field (fb_right f) N m azi zen r /\
    forall fs, In fs [44100; 48000; 96000]%Z -> exists h, load_hrirs lg (fun _ => None) (Ok d) fs Default = Ok h /\ h_fs h = fs /\ h_azi h = azi /\ h_zen h = zen /\
      (fs = 44100%Z -> h_left h = l /\ h_right h = r) /\
      (fs <> 44100%Z -> length (h_left h) = length azi /\ length (h_right h) = length azi /\ forall i, (i < length azi)%nat -> rs (fb_rate f) fs (nth i l []) = Ok (nth i (h_left h) []) /\ rs (fb_rate f) fs (nth i r []) = Ok (nth i (h_right h) [])).
Proof. exact x_default. Qed.
Print Assumptions C98_default_set.
Theorem C98_rate_unused : forall lg rs rs' cpus cs orders rate rate' L R0 dl azi zen jobs d d',
  get_default_hrirs lg rs cpus cs orders (Some (Fabian rate L R0)) dl azi zen jobs = Ok d -> get_default_hrirs lg rs' cpus cs orders (Some (Fabian rate' L R0)) dl azi zen jobs = Ok d' -> d 44100%Z = d' 44100%Z.
Proof. exact x_rate_unused. Qed.
Print Assumptions C98_rate_unused.
Theorem C98_errors : (forall lg rs cpus cs orders e azi zen j, get_default_hrirs lg rs cpus cs orders None (Err e) azi zen j = Err e) /\
  (forall lg rs cpus cs orders azi zen j, get_default_hrirs lg rs cpus cs orders None (Ok None) azi zen j = Err FileNotFoundError) /\
  (forall lg rs cpus cs orders f dl azi j, get_default_hrirs lg rs cpus cs orders (Some f) dl (Some azi) None j = Err TypeError) /\
  (forall lg rs cpus cs orders f dl zen j, get_default_hrirs lg rs cpus cs orders (Some f) dl None (Some zen) j = Err TypeError).
Proof. exact x_default_errors. Qed.
Print Assumptions C98_errors.
Theorem C98_label_refuted : exists f d h, fb_rate f = 48000%Z /\
  get_default_hrirs (fun _ => ([], [])) (fun _ _ x => Ok x) 4 1 (fun _ => [0; 1]%nat) (Some f) (Ok None) (Some ex_grid) (Some ex_grid) (Some 2%Z) = Ok d /\
  load_hrirs (fun _ => ([], [])) (fun _ => None) (Ok d) 44100 Default = Ok h /\ h_fs h = 44100%Z /\ holds_field (fb_left f) 0 1 ex_grid ex_grid (h_left h).
Proof. exact x_label_refuted. Qed.
Print Assumptions C98_label_refuted.
Example C98_nonvacuous : exists d h, get_default_hrirs (fun _ => ([], [])) (fun _ _ x => Ok x) 4 1 (fun _ => [0; 1]%nat) (Some (ex_fab 44100)) (Ok None) (Some ex_grid) (Some ex_grid) (Some 2%Z) = Ok d /\
  load_hrirs (fun _ => ([], [])) (fun _ => None) (Ok d) 44100 Default = Ok h /\ fst (dft 2 (nth 0 (h_left h) []) 0) > 0.
Proof. exact ex_default_nonzero. Qed.
