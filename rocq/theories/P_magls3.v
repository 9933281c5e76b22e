(** magls_bin: back to time, the whole function. *)
From Verif Require Import Base BaseFacts M_utils M_sig M_process M_sph M_parsa2 M_parsa3 M_decoder4 S_grids S_lsq S_magls P_utils P_sig P_parsa3 P_parsa9 P_sph6 P_sph7 P_proc2 P_proc5 P_lsq P_magls1 P_magls2.
Open Scope R_scope.

Lemma nth_rfft_n x n k : (k < n / 2 + 1)%nat -> (2 <= n)%nat -> nth k (rfft_n x n) (0, 0) = dft n x k.
Proof.
  intros K N. unfold rfft_n. rewrite nth_firstn by exact K. unfold fft.
  assert (n / 2 + 1 <= n)%nat by (pose proof (Nat.div_lt n 2); lia). rewrite (nth_map_seq' _ n k) by lia. reflexivity.
Qed.
Lemma length_irfft X : length (irfft X) = (2 * (length X - 1))%nat.
Proof. unfold irfft. rewrite map_length, seq_length. reflexivity. Qed.
Lemma nth_irfft X t : (t < 2 * (length X - 1))%nat -> nth t (irfft X) 0 = synth (length X - 1) (fun k => nth k X (0, 0)) t.
Proof. intros Ht. unfold irfft. rewrite nth_map_seq' by exact Ht. reflexivity. Qed.
Lemma synth_ext m X X' t : (1 <= m)%nat -> (forall k, (k <= m)%nat -> X k = X' k) -> synth m X t = synth m X' t.
Proof.
  intros M E. unfold synth. rewrite (E 0%nat), (E m) by lia. do 2 f_equal. apply rsum_ext. intros i Hi. rewrite (E (S i)) by lia. reflexivity.
Qed.
Lemma length_slice_to (x : list R) n : length (slice_to x (Z.of_nat n)) = Nat.min n (length x).
Proof. unfold slice_to. rewrite firstn_length. unfold norm_idx. destruct (Z.ltb_spec (Z.of_nat n) 0); lia. Qed.
Lemma nth_slice_to (x : list R) n t : (t < Nat.min n (length x))%nat -> nth t (slice_to x (Z.of_nat n)) 0 = nth t x 0.
Proof. intros Ht. unfold slice_to. apply nth_firstn. unfold norm_idx. destruct (Z.ltb_spec (Z.of_nat n) 0); lia. Qed.
Lemma mapM_exists {A B} (f : A -> res B) (Q : A -> B -> Prop) l d e : (forall a, In a l -> exists b, f a = Ok b /\ Q a b) ->
  exists r, mapM f l = Ok r /\ length r = length l /\ forall i, (i < length l)%nat -> Q (nth i l d) (nth i r e).
Proof.
  induction l as [|a l IH]; intros F.
  - exists []. split; [reflexivity|]. split; [reflexivity|]. intros i Hi. cbn in Hi. lia.
  - destruct (F a (or_introl eq_refl)) as (b & Eb & Qb). destruct IH as (r & Er & Lr & Qr); [intros x Hx; apply F; right; exact Hx|].
    exists (b :: r). cbn [mapM]. rewrite Eb. cbn [bind]. rewrite Er. cbn [bind length]. split; [reflexivity|]. split; [lia|].
    intros [|i] Hi; cbn [nth]; [exact Qb|]. apply Qr. lia.
Qed.
Lemma rows_ok nm taps m h : length h = (m + 1)%nat -> (1 <= m)%nat -> (32 <= Nat.min taps (2 * m))%nat -> exists rows, magls_rows nm taps h = Ok rows /\ length rows = nm /\
  forall j, (j < nm)%nat -> length (nth j rows []) = Nat.min taps (2 * m) /\
    forall t, (t < Nat.min taps (2 * m))%nat -> nth t (nth j rows []) 0 = edge_taper (Nat.min taps (2 * m)) t * synth m (fun k => coef h k j) t.
Proof.
  intros LH M T. unfold magls_rows.
  destruct (mapM_exists (fun j => taper_ends (slice_to (irfft (map (fun c => nth j c (0, 0)) h)) (Z.of_nat taps)))
    (fun j y => length y = Nat.min taps (2 * m) /\ forall t, (t < Nat.min taps (2 * m))%nat -> nth t y 0 = edge_taper (Nat.min taps (2 * m)) t * synth m (fun k => coef h k j) t)
    (seq 0 nm) 0%nat []) as (r & E & L & Q).
  - intros j _. set (X := map (fun c => nth j c (0, 0)) h).
    assert (LX : @length C2 X = (m + 1)%nat) by (unfold X; rewrite map_length; exact LH).
    assert (LS : length (slice_to (irfft X) (Z.of_nat taps)) = Nat.min taps (2 * m)) by (rewrite length_slice_to, length_irfft, LX; replace (m + 1 - 1)%nat with m by lia; reflexivity).
    destruct (taper_ok (slice_to (irfft X) (Z.of_nat taps)) ltac:(lia)) as (y & E & LY & V). exists y. split; [exact E|]. rewrite LS in *. split; [exact LY|].
    intros t Ht. rewrite V by exact Ht. f_equal. rewrite nth_slice_to by (rewrite length_irfft, LX; lia). rewrite nth_irfft by (rewrite LX; lia).
    rewrite LX. replace (m + 1 - 1)%nat with m by lia. apply synth_ext; [exact M|]. intros k Hk. unfold X, coef. rewrite (nth_map_in _ _ k (0, 0) []) by (unfold C2 in *; lia). reflexivity.
  - exists r. rewrite seq_length in *. split; [exact E|]. split; [exact L|]. intros j Hj. specialize (Q j Hj). rewrite seq_nth in Q by exact Hj. exact Q.
Qed.
Lemma rows_short nm taps m h : length h = (m + 1)%nat -> (1 <= nm)%nat -> (Nat.min taps (2 * m) < 32)%nat -> magls_rows nm taps h = Err ValueError.
Proof.
  intros LH NM T. unfold magls_rows. destruct nm as [|nm]; [lia|]. cbn [seq mapM]. rewrite taper_short; [reflexivity|].
  rewrite length_slice_to, length_irfft, map_length. unfold C2 in *. rewrite LH. replace (m + 1 - 1)%nat with m by lia. exact T.
Qed.


Section BIN.
  Variables (pinv : mat -> mat) (hr : hrirs) (N : nat) (f_trans : option R) (Y : mat) (n kc : nat).
  Hypothesis FS : h_fs hr <> 0%Z.
  Hypothesis HY : sh_matrix N (h_azi hr) (h_zen hr) = Ok Y.
  Hypothesis LZ : length (h_zen hr) = length (h_azi hr).
  Hypothesis HP : penrose Y (pinv Y).
  Hypothesis LL : length (h_left hr) = length (h_azi hr).
  Hypothesis LR : length (h_right hr) = length (h_azi hr).
  Hypothesis EN : n = Nat.max 1024 (h_taps hr).
  Hypothesis NB : nearest_bin n (IZR (h_fs hr)) (cuton f_trans N) kc.
  Lemma n_big : (1024 <= n)%nat.
  Proof. lia. Qed.
  Lemma half_big : (512 <= n / 2)%nat.
  Proof. apply (Nat.div_le_lower_bound n 2 512); pose proof n_big; lia. Qed.
  Lemma Y_dims : nr Y = length (h_azi hr) /\ nc Y = ((N + 1) ^ 2)%nat.
  Proof. destruct (sh_matrix_ok N (h_azi hr) (h_zen hr) LZ) as (Y' & E & A & B & _). rewrite HY in E. injection E as <-. auto. Qed.
  Definition spec_of (x : list (list R)) : list (list C2) := map (fun r => rfft_n r n) x.
  Lemma unfold_bin cont hf : magls_bin pinv hr N f_trans cont hf =
    let* l := magls_ear Y (pinv Y) (spec_of (h_left hr)) (n / 2 + 1) kc cont (2 * PI * fst hf / INR n) in
    let* r := magls_ear Y (pinv Y) (spec_of (h_right hr)) (n / 2 + 1) kc cont (2 * PI * snd hf / INR n) in
    let* l := magls_rows ((N + 1) ^ 2) (h_taps hr) l in
    let* r := magls_rows ((N + 1) ^ 2) (h_taps hr) r in
    Ok (l, r).
  Proof.
    pose proof n_big. pose proof half_big. assert (F : IZR (h_fs hr) <> 0) by (apply not_0_IZR; exact FS).
    assert (NN : INR n <> 0) by (apply not_0_INR; lia).
    unfold magls_bin. fold (cuton f_trans N). destruct (Reqb (IZR (h_fs hr)) 0) eqn:E0; [apply Reqb_true in E0; contradiction|].
    rewrite <- EN. fold (freq_list n (IZR (h_fs hr))).
    destruct (nearest_ok n (IZR (h_fs hr)) (cuton f_trans N) F ltac:(lia)) as (k & EK & NK). rewrite EK. cbn [bind].
    rewrite (nearest_unique _ _ _ _ _ NK NB). rewrite HY. cbn [bind].
    assert (LF : length (freq_list n (IZR (h_fs hr))) = (n / 2 + 1)%nat) by (unfold freq_list; rewrite map_length, seq_length; reflexivity).
    rewrite LF, nth_freq by (assumption || lia).
    replace (2 * PI * (INR 1 * IZR (h_fs hr) / INR n) * (fst hf / IZR (h_fs hr))) with (2 * PI * fst hf / INR n) by (simpl (INR 1); field; auto).
    replace (2 * PI * (INR 1 * IZR (h_fs hr) / INR n) * (snd hf / IZR (h_fs hr))) with (2 * PI * snd hf / INR n) by (simpl (INR 1); field; auto).
    reflexivity.
  Qed.
  Lemma length_spec x : length x = length (h_azi hr) -> length (spec_of x) = nr Y.
  Proof. intros L. unfold spec_of. rewrite map_length, (proj1 Y_dims). exact L. Qed.
  Lemma nth_spec x g k : length x = length (h_azi hr) -> (g < nr Y)%nat -> (k < n / 2 + 1)%nat -> nth k (nth g (spec_of x) []) (0, 0) = dft n (nth g x []) k.
  Proof.
    intros L Hg Hk. unfold spec_of. rewrite (nth_map_in _ _ g [] []) by (rewrite L, <- (proj1 Y_dims); exact Hg). pose proof n_big. rewrite nth_rfft_n by lia. reflexivity.
  Qed.
  Lemma spectrum_ext H H' bins cont s c : (forall g k, (g < nr Y)%nat -> (k < bins)%nat -> H g k = H' g k) -> magls_spectrum Y H kc bins cont s c -> magls_spectrum Y H' kc bins cont s c.
  Proof.
    intros E (delta & PS & F). exists delta. split; [exact PS|]. intros k Hk. destruct (F k Hk) as (A & B). split; intros K.
    - eapply cfit_ext; [| |exact (A K)]; [|reflexivity]. intros g Hg. apply E; assumption.
    - eapply cfit_ext; [| |exact (B K)]; [|reflexivity]. intros g Hg. cbn beta. rewrite (E g k Hg Hk). reflexivity.
  Qed.
  Lemma kc_le : (kc <= n / 2 + 1)%nat.
  Proof. destruct NB as (A & _). lia. Qed.
  Lemma ear_bin x cont s : length x = length (h_azi hr) -> cont_ok cont kc ->
    exists h, magls_ear Y (pinv Y) (spec_of x) (n / 2 + 1) kc cont s = Ok h /\ length h = (n / 2 + 1)%nat /\
      magls_spectrum Y (fun g => dft n (nth g x [])) kc (n / 2 + 1) cont s (coef h).
  Proof.
    intros L CO. destruct (ear_ok Y (pinv Y) (spec_of x) (n / 2 + 1) kc s HP (length_spec x L) ltac:(lia) kc_le cont CO) as (h & E & (LH & _) & MS).
    exists h. split; [exact E|]. split; [exact LH|]. eapply spectrum_ext; [|exact MS]. intros g k Hg Hk. cbn beta. apply nth_spec; assumption.
  Qed.
  Lemma min_taps : (32 <= h_taps hr)%nat -> (32 <= Nat.min (h_taps hr) (2 * (n / 2)))%nat.
  Proof. pose proof half_big. lia. Qed.
  Lemma bin_ok cont hf : cont_ok cont kc -> (32 <= h_taps hr)%nat -> exists l r, magls_bin pinv hr N f_trans cont hf = Ok (l, r) /\
    magls_result Y (h_left hr) n (h_taps hr) kc cont (2 * PI * fst hf / INR n) l /\
    magls_result Y (h_right hr) n (h_taps hr) kc cont (2 * PI * snd hf / INR n) r.
  Proof.
    intros CO T. rewrite unfold_bin. pose proof half_big as HB.
    destruct (ear_bin (h_left hr) cont (2 * PI * fst hf / INR n) LL CO) as (hl & El & Ll & Sl). rewrite El. cbn [bind].
    destruct (ear_bin (h_right hr) cont (2 * PI * snd hf / INR n) LR CO) as (hr' & Er & Lr & Sr). rewrite Er. cbn [bind].
    destruct (rows_ok ((N + 1) ^ 2) (h_taps hr) (n / 2) hl Ll ltac:(lia) (min_taps T)) as (rl & Erl & Lrl & Vl). rewrite Erl. cbn [bind].
    destruct (rows_ok ((N + 1) ^ 2) (h_taps hr) (n / 2) hr' Lr ltac:(lia) (min_taps T)) as (rr & Err' & Lrr & Vr). rewrite Err'. cbn [bind].
    exists rl, rr. split; [reflexivity|]. rewrite <- (proj2 Y_dims) in *. split; [exists (coef hl)|exists (coef hr')]; (split; [assumption|split; assumption]).
  Qed.
  Lemma bin_assert cont hf : (kc <= 5)%nat -> cont = Avg \/ cont = Angle -> magls_bin pinv hr N f_trans cont hf = Err AssertionError.
  Proof. intros K C. rewrite unfold_bin. rewrite (ear_assert Y (pinv Y) (spec_of (h_left hr)) _ kc _ HP (length_spec _ LL) cont K C). reflexivity. Qed.
  Lemma bin_other hf : magls_bin pinv hr N f_trans OtherCont hf = Err ValueError.
  Proof. rewrite unfold_bin. rewrite (ear_other Y (pinv Y) (spec_of (h_left hr)) _ kc _ HP (length_spec _ LL)). reflexivity. Qed.
  Lemma bin_short cont hf : cont_ok cont kc -> (h_taps hr < 32)%nat -> magls_bin pinv hr N f_trans cont hf = Err ValueError.
  Proof.
    intros CO T. rewrite unfold_bin. pose proof half_big as HB.
    destruct (ear_bin (h_left hr) cont (2 * PI * fst hf / INR n) LL CO) as (hl & El & Ll & Sl). rewrite El. cbn [bind].
    destruct (ear_bin (h_right hr) cont (2 * PI * snd hf / INR n) LR CO) as (hr' & Er & Lr & Sr). rewrite Er. cbn [bind].
    rewrite (rows_short _ _ (n / 2) hl Ll); [reflexivity| |lia]. assert (0 < (N + 1) ^ 2)%nat by (cbn [Nat.pow]; lia). lia.
  Qed.
End BIN.
Lemma bin_fs0 pinv hr N f cont hf : h_fs hr = 0%Z -> magls_bin pinv hr N f cont hf = Err ZeroDivisionError.
Proof. intros E. unfold magls_bin. rewrite E. destruct (Reqb 0 0) eqn:C; [reflexivity|]. apply Reqb_false in C. contradiction. Qed.
