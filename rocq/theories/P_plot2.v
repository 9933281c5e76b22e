(** freq_resp and spectrum. *)
From Verif Require Import Base BaseFacts M_utils M_sig M_process M_sph M_parsa2 M_parsa3 M_decoder4 M_process2 M_plot S_magls S_ctf S_plot P_utils P_sig P_proc1 P_magls2 P_magls3 P_ctf1 P_plot1.
Open Scope R_scope.

Lemma floor_pos : 0 < 1 / 100000000000000. Proof. lra. Qed.
Lemma val_db_pos x : x <> 0 -> val_db x = Fin (decibel (Rabs x)).
Proof.
  intros X. unfold val_db, db. destruct (Reqb (Rabs x) 0) eqn:E; [apply Reqb_true in E; exfalso; apply (Rabs_no_R0 x X E)|]. reflexivity.
Qed.
Lemma val_db_0 : val_db 0 = NInf.
Proof. unfold val_db, db. rewrite Rabs_R0. replace (Reqb 0 0) with true by (symmetry; apply Reqb_true; reflexivity). reflexivity. Qed.
Lemma to_db_axis a : to_db a = map (on_axis true) a.
Proof.
  unfold to_db. apply map_ext. intros x. unfold clip_lo. pose proof floor_pos. pose proof (Rmax_l (1 / 100000000000000) (Rabs x)).
  rewrite val_db_pos by lra. cbn [fin]. unfold on_axis. rewrite (Rabs_pos_eq (Rmax _ _)) by lra. reflexivity.
Qed.
Lemma on_axis_map (todb : bool) (mag : list (list R)) : (if todb then map to_db mag else mag) = map (map (on_axis todb)) mag.
Proof.
  destruct todb.
  - apply map_ext. exact to_db_axis.
  - rewrite <- (map_id mag) at 1. apply map_ext. intros a. rewrite <- (map_id a) at 1. reflexivity.
Qed.

Lemma all_fin_in l : (forall v, In v l -> exists y, v = Fin y) -> all_fin l = true.
Proof. intros H. apply forallb_forall. intros v Hv. destruct (H v Hv) as (y & ->). reflexivity. Qed.
Lemma limits ylim (freq : list R) mag lg : (exists r v, In r mag /\ In v r) -> (forall r v, In r mag -> In v r -> exists y, v = Fin y) ->
  exists yl, match ylim with
             | YPair lo hi => Ok (lo, hi)
             | YRange d => if all_fin (concat mag) then let* m := np_max (map fin (concat mag)) in Ok (m - d, m) else Err ValueError
             end = Ok yl /\ limits_ok ylim (Curves freq mag yl lg).
Proof.
  intros (r0 & v0 & R0 & V0) F. destruct ylim as [d|lo hi]; [|exists (lo, hi); split; reflexivity].
  assert (FC : forall v, In v (concat mag) -> exists y, v = Fin y) by (intros v Hv; apply in_concat in Hv; destruct Hv as (r & A & B); exact (F r v A B)).
  rewrite (all_fin_in _ FC). assert (NE : map fin (concat mag) <> []).
  { intros E. assert (In v0 (concat mag)) by (apply in_concat; exists r0; auto). apply map_eq_nil in E. rewrite E in H. exact H. }
  destruct (np_max_ok _ NE) as (m & E). rewrite E. cbn [bind]. exists (m - d, m). split; [reflexivity|]. exists m. split; [|reflexivity].
  destruct (np_max_spec _ _ E) as (I & B). cbn [cu_mag]. split.
  - apply in_map_iff in I. destruct I as (v & Ev & Hv). apply in_concat in Hv. destruct Hv as (r & Hr & Hv). exists r. split; [exact Hr|].
    destruct (F r v Hr Hv) as (y & ->). cbn [fin] in Ev. subst y. exact Hv.
  - intros r v Hr Hv. destruct (F r v Hr Hv) as (y & ->). exists y. split; [reflexivity|]. apply B. apply in_map_iff. exists (Fin y). split; [reflexivity|]. apply in_concat. exists r. auto.
Qed.

Lemma curves_ok (todb : bool) sm mag L : (match sm with Some n => 0 < n | None => True end) -> (forall a, In a mag -> length a = L) ->
  exists out, match sm with
              | None => Ok (map (map Fin) (if todb then map to_db mag else mag))
              | Some n => mapM (fun a => let* s := frac_octave_smoothing (arr1 a) n true in Ok (map of_opt s)) (if todb then map to_db mag else mag)
              end = Ok out /\ length out = length mag /\
    (forall i, (i < length mag)%nat -> length (nth i out []) = L /\ curve_of todb sm (nth i mag []) (nth i out [])) /\
    (forall r v, In r out -> In v r -> exists y, v = Fin y).
Proof.
  intros SM ML. rewrite on_axis_map. destruct sm as [n|].
  - destruct (mapM_exists (fun a => let* s := frac_octave_smoothing (arr1 a) n true in Ok (map of_opt s))
      (fun a c => exists o, c = map Fin o /\ length o = length a /\ forall idx, (idx < length a)%nat -> octave_mean true n (length a) (fun k => nth k a 0) idx (nth idx o 0))
      (map (map (on_axis todb)) mag) [] []) as (out & E & LO & Q).
    { intros a _. destruct (octave_ok a n true SM) as (o & Eo & Lo & Ho). rewrite Eo. cbn [bind]. eexists. split; [reflexivity|]. exists o. rewrite map_map. auto. }
    rewrite map_length in LO, Q. exists out. split; [exact E|]. split; [exact LO|]. split.
    + intros i Hi. destruct (Q i Hi) as (o & Eo & Lo & Ho). change (@nil R) with (map (on_axis todb) []) in Lo, Ho at 1. rewrite Eo, map_length.
      assert (EA : nth i (map (map (on_axis todb)) mag) [] = map (on_axis todb) (nth i mag [])) by (change (@nil R) with (map (on_axis todb) []) at 1; apply map_nth).
      assert (EL : length o = length (nth i mag [])) by (rewrite Lo; change (map (on_axis todb) []) with (@nil R); rewrite EA, map_length; reflexivity).
      assert (IN : In (nth i mag []) mag) by (apply nth_In; exact Hi). split; [rewrite EL; apply ML, IN|].
      cbn [curve_of]. rewrite map_length. split; [exact EL|]. intros j Hj. exists (nth j o 0). split.
      * rewrite (nth_indep _ NaN (Fin 0)) by (rewrite map_length; lia). apply map_nth.
      * change (map (on_axis todb) []) with (@nil R) in Ho. rewrite EA, map_length in Ho. specialize (Ho j Hj).
        destruct Ho as (lo & M & H1 & H2 & H3 & H4). exists lo, M. split; [exact H1|]. split; [exact H2|]. split; [exact H3|]. rewrite H4. f_equal. apply rsum_ext. intros q Hq. f_equal.
        rewrite (nth_indep _ 0 (on_axis todb 0)) by (rewrite map_length; lia). apply map_nth.
    + intros r v Hr Hv. apply (In_nth _ _ []) in Hr. destruct Hr as (i & Hi & <-). rewrite LO in Hi. destruct (Q i Hi) as (o & Eo & _). rewrite Eo in Hv. apply in_map_iff in Hv. destruct Hv as (y & <- & _). exists y. reflexivity.
  - eexists. split; [reflexivity|]. rewrite !map_length. split; [reflexivity|]. rewrite map_map. split.
    + intros i Hi. change (@nil val) with ((fun x => map Fin (map (on_axis todb) x)) []). rewrite map_nth. cbn [map]. rewrite !map_length. split; [apply ML, nth_In; exact Hi|].
      unfold curve_of. rewrite map_map. reflexivity.
    + intros r v Hr Hv. apply in_map_iff in Hr. destruct Hr as (a & <- & _). apply in_map_iff in Hv. destruct Hv as (y & <- & _). exists y. reflexivity.
Qed.

Lemma freq_resp_ok freq mag todb sm ylim labels :
  (0 < length freq)%nat -> mag <> [] -> (forall a, In a mag -> length a = length freq) ->
  (match sm with Some n => 0 < n /\ is_tuple labels = false | None => True end) ->
  exists cu labels', freq_resp freq mag todb sm ylim labels = Ok (cu, labels') /\ cu_freq cu = freq /\ length (cu_mag cu) = length mag /\
    (forall i, (i < length mag)%nat -> curve_of todb sm (nth i mag []) (nth i (cu_mag cu) [])) /\ limits_ok ylim cu /\ legend_ok labels sm cu labels'.
Proof.
  intros LF NE ML SM. unfold freq_resp. assert (A1 : forallb (fun a => Nat.eqb (length a) (length freq)) mag = true) by (apply forallb_forall; intros a Ha; apply Nat.eqb_eq, ML, Ha).
  rewrite A1. cbn [assert_ bind].
  destruct (curves_ok todb sm mag (length freq)) as (out & E & LO & Q & F); [destruct sm; [apply SM|exact I]|exact ML|].
  rewrite E. cbn [bind]. assert (LG : exists lg, legend labels (length out) sm = Ok lg /\ forall yl, legend_ok labels sm (Curves freq out yl (fst lg)) (snd lg)).
  { destruct labels, sm as [n|]; cbn [legend]; try (eexists; split; [reflexivity|]; intros yl; split; reflexivity). destruct SM as (_ & H). discriminate H. }
  destruct LG as (lg & ELG & HLG). rewrite ELG. cbn [bind].
  destruct (limits ylim freq out (fst lg)) as (yl & EY & HY).
  { destruct mag as [|a0 mag']; [congruence|]. destruct out as [|o0 out']; [discriminate LO|]. destruct (Q 0%nat) as (L0 & _); [cbn; lia|]. cbn [nth] in L0.
    destruct o0 as [|v0 o0']; [cbn in L0; lia|]. exists (v0 :: o0'), v0. split; left; reflexivity. }
  { exact F. }
  rewrite EY. cbn [bind]. eexists; eexists. split; [reflexivity|]. cbn [cu_freq cu_mag]. split; [reflexivity|]. split; [exact LO|]. split; [intros i Hi; apply Q; exact Hi|].
  split; [exact HY|apply HLG].
Qed.
Lemma freq_resp_tuple freq mag todb n ylim l : (0 < length freq)%nat -> (forall a, In a mag -> length a = length freq) -> 0 < n ->
  freq_resp freq mag todb (Some n) ylim (LTuple l) = Err AttributeError.
Proof.
  intros LF ML SM. unfold freq_resp. assert (A1 : forallb (fun a => Nat.eqb (length a) (length freq)) mag = true) by (apply forallb_forall; intros a Ha; apply Nat.eqb_eq, ML, Ha).
  rewrite A1. cbn [assert_ bind]. destruct (curves_ok todb (Some n) mag (length freq) SM ML) as (out & E & _). rewrite E. reflexivity.
Qed.

Lemma cabs_scale c a b : 0 <= c -> cabs (c * a, c * b) = c * sqrt (a ^ 2 + b ^ 2).
Proof.
  intros C. unfold cabs. cbn [fst snd]. replace ((c * a) ^ 2 + (c * b) ^ 2) with (c ^ 2 * (a ^ 2 + b ^ 2)) by ring. rewrite sqrt_mult; [|nra|nra]. f_equal. apply sqrt_pow2. exact C.
Qed.
Lemma sqrt_sq_0 a : sqrt (a ^ 2 + 0 ^ 2) = Rabs a.
Proof. replace (a ^ 2 + 0 ^ 2) with (Rsqr a) by (unfold Rsqr; ring). apply sqrt_Rsqr_abs. Qed.
Lemma sqrt_half a f : sqrt ((a * cos f / 2) ^ 2 + (a * sin f / 2) ^ 2) = Rabs a / 2.
Proof.
  pose proof (sin2_cos2 f) as E. unfold Rsqr in E. replace ((a * cos f / 2) ^ 2 + (a * sin f / 2) ^ 2) with (Rsqr (a / 2) * (sin f * sin f + cos f * cos f)) by (unfold Rsqr; field).
  rewrite E, Rmult_1_r, sqrt_Rsqr_abs. unfold Rdiv. rewrite Rabs_mult, (Rabs_pos_eq (/ 2)) by lra. reflexivity.
Qed.
Lemma halves n : (0 < n)%nat -> (n / 2 + 1 <= n)%nat.
Proof. intros H. destruct n as [|[|n]]; [lia|cbn; lia|]. pose proof (Nat.div_lt (S (S n)) 2 ltac:(lia) ltac:(lia)). lia. Qed.
Lemma spec_mag_ok bins scale s : (0 < length s)%nat ->
  exists m, spec_mag bins scale s = Ok m /\ length m = (length s / 2 + 1)%nat.
Proof.
  intros H. unfold spec_mag. rewrite (proj2 (Nat.eqb_neq (length s) 0)) by lia. eexists. split; [reflexivity|].
  assert (L : forall (l : list R), length (match l with [] => [] | m0 :: t => m0 :: map (fun m => m * 2) t end) = length l) by (intros [|a l]; [reflexivity|]; cbn [length]; rewrite map_length; reflexivity).
  assert (LR : length (rfft s) = (length s / 2 + 1)%nat) by (unfold rfft, fft; rewrite firstn_length, map_length, seq_length; pose proof (halves (length s) H); lia).
  destruct scale; rewrite ?map_length, L, map_length, LR; reflexivity.
Qed.
Lemma nth_rfft' s k : (0 < length s)%nat -> (k < length s / 2 + 1)%nat -> nth k (rfft s) (0, 0) = dft (length s) s k.
Proof.
  intros H K. pose proof (halves _ H) as HV. unfold rfft. rewrite nth_firstn by exact K. unfold fft. rewrite (nth_map_seq' _ (length s) k) by lia. reflexivity.
Qed.
Lemma double_tail (l : list R) k : nth k (match l with [] => [] | m0 :: t => m0 :: map (fun m => m * 2) t end) 0 = nth k l 0 * (if Nat.eqb k 0 then 1 else 2).
Proof.
  destruct l as [|a l]; [destruct k; cbn [nth]; ring|]. destruct k as [|k]; cbn [nth Nat.eqb]; [ring|].
  transitivity (nth k (map (fun m => m * 2) l) (0 * 2)); [f_equal; ring|]. exact (map_nth (fun m => m * 2) l 0 k).
Qed.
Lemma spec_mag_partials n scale s c0 A phi cN m : (0 < n)%nat -> partials n c0 A phi cN s -> spec_mag n scale s = Ok m ->
  m = map (fun k => (if scale then INR n / 2 else 1) * amplitude n c0 A cN k) (seq 0 (n / 2 + 1)).
Proof.
  intros Hn P E. destruct (proj1 P). set (n := length s) in *. assert (NP : 0 < INR n) by (apply lt_0_INR; exact Hn).
  destruct (spec_mag_ok n scale s Hn) as (m' & E' & L). rewrite E in E'. injection E' as <-. apply nth_ext with (d := 0) (d' := 0); [rewrite map_length, seq_length; exact L|].
  intros k Hk. rewrite L in Hk. fold n in Hk. rewrite (nth_map_seq' _ (n / 2 + 1) k) by exact Hk.
  assert (K2 : (2 * k <= n)%nat) by (pose proof (Nat.div_mod n 2 ltac:(lia)); lia).
  unfold spec_mag in E. fold n in E. rewrite (proj2 (Nat.eqb_neq n 0)) in E by lia. injection E as <-.
  assert (B : nth k (match map (fun z => cabs z / INR n) (rfft s) with [] => [] | m0 :: t => m0 :: map (fun m => m * 2) t end) 0 = amplitude n c0 A cN k).
  { rewrite double_tail. assert (nth k (map (fun z => cabs z / INR n) (rfft s)) 0 = cabs (dft n s k) / INR n) as ->.
    { rewrite (nth_indep _ 0 (cabs (0, 0) / INR n)).
      - rewrite (map_nth (fun z => cabs z / INR n)). f_equal. f_equal. apply nth_rfft'; assumption.
      - rewrite map_length. unfold rfft, fft. rewrite firstn_length, map_length, seq_length. fold n. pose proof (halves n Hn). lia. }
    rewrite (dft_partials n Hn c0 cN A phi s k P K2). rewrite cabs_scale by lra. unfold amplitude.
    destruct (Nat.eqb k 0); cbn [orb]; [rewrite sqrt_sq_0; field; lra|]. destruct (Nat.eqb (2 * k) n); [rewrite sqrt_sq_0; field; lra|]. rewrite sqrt_half. field. lra. }
  destruct scale.
  - transitivity (nth k (map (fun m => m * INR n / 2) (match map (fun z => cabs z / INR n) (rfft s) with [] => [] | m0 :: t => m0 :: map (fun m => m * 2) t end)) (0 * INR n / 2)); [f_equal; field|].
    rewrite (map_nth (fun m => m * INR n / 2)). rewrite B. field.
  - rewrite B. ring.
Qed.

Lemma spectrum_unfold xs n fs scale todb sm ylim labels : xs <> [] -> (0 < n)%nat -> (forall x, In x xs -> length x = n) -> 0 < fs ->
  spectrum xs fs scale todb sm ylim labels = let* specs := mapM (spec_mag n scale) xs in freq_resp (rfftfreq n fs) specs todb sm ylim labels.
Proof.
  intros NE Hn XL FS. destruct xs as [|x0 xs']; [congruence|]. unfold spectrum. rewrite (XL x0 (or_introl eq_refl)).
  rewrite (proj2 (Nat.eqb_neq n 0)) by lia. replace (Reqb fs 0) with false by (symmetry; apply Reqb_false; lra). reflexivity.
Qed.
Lemma spectrum_ok xs n fs scale todb sm ylim labels : xs <> [] -> (0 < n)%nat -> (forall x, In x xs -> length x = n) -> 0 < fs ->
  (match sm with Some n => 0 < n /\ is_tuple labels = false | None => True end) ->
  exists cu labels', spectrum xs fs scale todb sm ylim labels = Ok (cu, labels') /\
    cu_freq cu = map (fun k => INR k * fs / INR n) (seq 0 (n / 2 + 1)) /\ length (cu_mag cu) = length xs /\
    (forall i c0 A phi cN, (i < length xs)%nat -> partials n c0 A phi cN (nth i xs []) ->
       curve_of todb sm (map (fun k => (if scale then INR n / 2 else 1) * amplitude n c0 A cN k) (seq 0 (n / 2 + 1))) (nth i (cu_mag cu) [])) /\
    limits_ok ylim cu /\ legend_ok labels sm cu labels'.
Proof.
  intros NE Hn XL FS SM. rewrite (spectrum_unfold xs n) by assumption.
  destruct (mapM_exists (spec_mag n scale) (fun s m => spec_mag n scale s = Ok m /\ length m = (n / 2 + 1)%nat) xs [] []) as (ms & E & LM & Q).
  { intros a Ha. destruct (spec_mag_ok n scale a) as (m & Em & Lm); [rewrite XL by exact Ha; exact Hn|]. exists m. rewrite (XL a Ha) in Lm. auto. }
  rewrite E. cbn [bind].
  assert (LF : length (rfftfreq n fs) = (n / 2 + 1)%nat) by (unfold rfftfreq; rewrite map_length, seq_length; reflexivity).
  destruct (freq_resp_ok (rfftfreq n fs) ms todb sm ylim labels) as (cu & l' & EF & H1 & H2 & H3 & H4 & H5).
  - lia.
  - intros Z. rewrite Z in LM. destruct xs; [congruence|discriminate LM].
  - intros a Ha. apply (In_nth _ _ []) in Ha. destruct Ha as (i & Hi & <-). rewrite LM in Hi. rewrite LF. apply Q. exact Hi.
  - exact SM.
  - exists cu, l'. split; [exact EF|]. split.
    { rewrite H1. unfold rfftfreq. apply map_ext. intros k. field. split; [|lra]. apply not_0_INR. lia. }
    split; [lia|]. split; [|split; assumption]. intros i c0 A phi cN Hi HP. destruct (Q i Hi) as (Em & _). rewrite <- LM in Hi. specialize (H3 i Hi). rewrite (spec_mag_partials n scale _ c0 A phi cN _ Hn HP Em) in H3. exact H3.
Qed.
Lemma spectrum_tuple xs n fs scale todb sn ylim l : xs <> [] -> (0 < n)%nat -> (forall x, In x xs -> length x = n) -> 0 < fs -> 0 < sn ->
  spectrum xs fs scale todb (Some sn) ylim (LTuple l) = Err AttributeError.
Proof.
  intros NE Hn XL FS SM. rewrite (spectrum_unfold xs n) by assumption.
  destruct (mapM_exists (spec_mag n scale) (fun s m => length m = (n / 2 + 1)%nat) xs [] []) as (ms & E & LM & Q).
  { intros a Ha. destruct (spec_mag_ok n scale a) as (m & Em & Lm); [rewrite XL by exact Ha; exact Hn|]. exists m. rewrite (XL a Ha) in Lm. auto. }
  rewrite E. cbn [bind]. assert (LF : length (rfftfreq n fs) = (n / 2 + 1)%nat) by (unfold rfftfreq; rewrite map_length, seq_length; reflexivity).
  apply freq_resp_tuple; [lia| |exact SM]. intros a Ha. apply (In_nth _ _ []) in Ha. destruct Ha as (i & Hi & <-). rewrite LM in Hi. rewrite LF. apply Q. exact Hi.
Qed.
(** the bandwidth in the legend is never the one used *)
Lemma label_wrong n : 0 < n -> IZR (py_int n) / 8 <> 1 / n.
Proof.
  intros N E. destruct (py_int_nonneg n ltac:(lra)) as (Z0 & B1 & B2). set (p := py_int n) in *.
  assert (Q : IZR p * n = 8) by (apply (f_equal (fun z => z * 8 * n)) in E; replace (IZR p / 8 * 8 * n) with (IZR p * n) in E by field; rewrite E; field; lra).
  destruct (Z.le_gt_cases p 0) as [H|H].
  - assert (p = 0)%Z by lia. rewrite H0 in Q. lra.
  - destruct (Z.le_gt_cases p 2) as [H2|H2].
    + apply IZR_le in H2. assert (n < 3) by lra. assert (0 < IZR p) by (apply IZR_lt; exact H). nra.
    + assert (3 <= IZR p) by (apply IZR_le; lia). nra.
Qed.
