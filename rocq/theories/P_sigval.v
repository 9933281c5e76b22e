(** Values of conv, resample and apply. *)
From Coq Require Import Lra Lia.
From Verif Require Import Base BaseFacts M_utils S_utils P_utils X_utils M_sig S_sig P_sig X_sig.
Open Scope R_scope.

Lemma rsum_guard n f : (forall i, (n <= i)%nat -> f i = 0) -> forall m, rsum m f = rsum n (fun i => if Nat.ltb i m then f i else 0).
Proof.
  intros Hf m. destruct (le_lt_dec m n) as [L|L].
  - replace n with (m + (n - m))%nat at 1 by lia. rewrite rsum_app.
    assert (E1 : rsum m (fun i => if Nat.ltb i m then f i else 0) = rsum m f) by (apply rsum_ext; intros i Hi; destruct (Nat.ltb_spec i m); [reflexivity|lia]).
    assert (E2 : rsum (n - m) (fun i => if Nat.ltb (m + i) m then f (m + i)%nat else 0) = 0).
    { apply rsum_0. intros i Hi. destruct (Nat.ltb_spec (m + i) m); [lia|reflexivity]. }
    rewrite E1, E2. ring.
  - replace m with (n + (m - n))%nat at 1 by lia. rewrite rsum_app. rewrite (rsum_0 (m - n)).
    + rewrite Rplus_0_r. apply rsum_ext. intros i Hi. destruct (Nat.ltb_spec i m); [reflexivity|lia].
    + intros i Hi. apply Hf. lia.
Qed.
Lemma conv_at_pairs a h k : conv_at a h k = rsum (length a) (fun i => rsum (length h) (fun j => if Nat.eqb (i + j) k then nth i a 0 * nth j h 0 else 0)).
Proof.
  unfold conv_at. rewrite (rsum_guard (length a)) by (intros i Hi; rewrite (nth_overflow a) by lia; ring). apply rsum_ext. intros i Hi.
  destruct (Nat.ltb_spec i (S k)) as [L|L].
  - destruct (le_lt_dec (length h) (k - i)) as [G|G].
    + rewrite (nth_overflow h) by lia. rewrite (rsum_0 (length h)); [ring|]. intros j Hj. destruct (Nat.eqb_spec (i + j) k); [lia|reflexivity].
    + rewrite (rsum_single (length h) (k - i) (fun j => if Nat.eqb (i + j) k then nth i a 0 * nth j h 0 else 0) G).
      2: { intros j Hj Hn. destruct (Nat.eqb_spec (i + j) k); [lia|reflexivity]. }
      replace (i + (k - i))%nat with k by lia. rewrite Nat.eqb_refl. reflexivity.
  - rewrite (rsum_0 (length h)); [reflexivity|]. intros j Hj. destruct (Nat.eqb_spec (i + j) k); [lia|reflexivity].
Qed.
Lemma convolve_pairs a h : convolution a h (convolve a h).
Proof.
  split; [apply length_convolve|]. intros k. rewrite <- conv_at_pairs. destruct a as [|x a].
  - cbn [convolve]. rewrite (nth_overflow []) by (cbn; lia). unfold conv_at. rewrite (rsum_0 (S k)); [reflexivity|]. intros i Hi. rewrite (nth_overflow []) by (cbn; lia). ring.
  - destruct h as [|y h].
    + cbn [convolve]. rewrite (nth_overflow []) by (cbn; lia). unfold conv_at. rewrite (rsum_0 (S k)); [reflexivity|]. intros i Hi. rewrite (nth_overflow []) by (cbn; lia). ring.
    + cbn [convolve]. destruct (le_lt_dec (length (x :: a) + length (y :: h) - 1) k) as [L|L].
      * rewrite nth_overflow by (rewrite map_length, seq_length; auto). unfold conv_at. rewrite (rsum_0 (S k)); [reflexivity|]. intros i Hi.
        destruct (le_lt_dec (length (x :: a)) i); [rewrite (nth_overflow (x :: a)) by lia; ring|]. rewrite (nth_overflow (y :: h)) by lia. ring.
      * rewrite nth_map_seq by auto. reflexivity.
Qed.

Lemma mono_conv_value m h : mono_conv m (arr1 h) = Ok (Mono (convolve (m_sig m) h) (m_fs m)).
Proof. unfold mono_conv. rewrite asarray_arr1. cbn [bind data arr1]. apply mono_set_arr1. Qed.
Lemma conv_zip_value hs : forall cs, exists cs', conv_zip cs (map arr1 hs) = Ok cs' /\ length cs' = length cs /\
  forall i c, nth_error cs i = Some c -> exists c', nth_error cs' i = Some c' /\ m_fs c' = m_fs c /\
    (forall h, nth_error hs i = Some h -> convolution (m_sig c) h (m_sig c')) /\ (nth_error hs i = None -> c' = c).
Proof.
  induction hs as [|h hs IH]; intros cs.
  - exists cs. split; [destruct cs; reflexivity|]. split; auto. intros i c E. exists c. do 2 (split; auto). split; auto. intros h Eh. destruct i; discriminate.
  - destruct cs as [|c cs].
    + exists []. do 2 (split; [reflexivity|]). intros [|i] c E; discriminate.
    + cbn [map conv_zip]. rewrite mono_conv_value. cbn [bind]. destruct (IH cs) as (cs' & E & L & H). rewrite E. cbn [bind]. eexists. split; [reflexivity|]. split; [cbn; lia|].
      intros [|i] d Ed; cbn [nth_error] in *.
      * injection Ed as <-. eexists. split; [reflexivity|]. cbn [m_fs m_sig]. split; auto. split; [intros g [= <-]; apply convolve_pairs|discriminate].
      * apply H. exact Ed.
Qed.
Lemma conv_value : (forall m h, exists m', mono_conv m (arr1 h) = Ok m' /\ m_fs m' = m_fs m /\ convolution (m_sig m) h (m_sig m')) /\
  forall m hs, exists m', multi_conv m (map arr1 hs) = Ok m' /\ mu_fs m' = mu_fs m /\ channel_count m' = channel_count m /\ length (channels m') = length (channels m) /\
    forall i c, nth_error (channels m) i = Some c -> exists c', nth_error (channels m') i = Some c' /\ m_fs c' = m_fs c /\
      (forall h, nth_error hs i = Some h -> convolution (m_sig c) h (m_sig c')) /\ (nth_error hs i = None -> c' = c).
Proof.
  split.
  - intros m h. rewrite mono_conv_value. eexists. split; [reflexivity|]. split; auto. apply convolve_pairs.
  - intros m hs. unfold multi_conv. destruct (conv_zip_value hs (channels m)) as (cs & E & L & H). rewrite E. cbn [bind]. eexists. split; [reflexivity|]. cbn [mu_fs channel_count channels]. auto.
Qed.

Lemma resample_value resampler : length_regular resampler -> forall m fs_new,
  consistent (length (channels m)) m -> (2 <= length (channels m))%nat ->
  (fs_new = mu_fs m -> multi_resample resampler m fs_new = Ok m) /\
  (fs_new <> mu_fs m -> forall rs, Forall2 (fun c r => resampler (mu_fs m) fs_new (m_sig c) = Ok r) (channels m) rs ->
     exists m', multi_resample resampler m fs_new = Ok m' /\ mu_fs m' = fs_new /\ channel_count m' = length (channels m) /\ channels m' = map (fun r => Mono r fs_new) rs).
Proof.
  intros LR m f (C1 & _ & C3 & C4) H2. unfold multi_resample. split.
  - intros ->. rewrite Z.eqb_refl. reflexivity.
  - intros Hf rs F. apply Z.eqb_neq in Hf. rewrite Hf. unfold resample_multi_data, get_signals.
    destruct (channels m) as [|c cs] eqn:EC; [cbn in H2; lia|].
    assert (FA : forallb (fun d => Nat.eqb (mono_len d) (mono_len c)) cs = true).
    { apply forallb_forall. intros d Hd. apply Nat.eqb_eq. apply C4; [right; auto|left; auto]. }
    rewrite FA. cbn [bind snd]. assert (EM : mapM (resampler (mu_fs m) f) (map m_sig (c :: cs)) = Ok rs).
    { clear - F. revert rs F. generalize (c :: cs). induction l as [|d l IH]; intros rs F; inversion F; subst; [reflexivity|]. cbn [map mapM]. rewrite H1. cbn [bind]. rewrite (IH _ H3). reflexivity. }
    cbn [map] in *. rewrite EM. cbn [bind]. pose proof (Forall2_length' _ _ _ F) as HL.
    assert (FN : Forall (fun r => length r = match rs with r :: _ => length r | [] => 0%nat end) rs).
    { apply Forall_forall. intros r Hr. inversion F as [|c0 r0 cs0 rs0 Hh Ht]; subst. destruct Hr as [<-|Hr]; [reflexivity|].
      destruct (In_nth_error _ _ Hr) as [i Hi]. assert (exists d, nth_error cs i = Some d /\ resampler (mu_fs m) f (m_sig d) = Ok r) as (d & Ed & Er).
      { clear - Ht Hi. revert i Hi. induction Ht; intros [|i] Hi; try discriminate; cbn in *; [injection Hi as <-; eauto|auto]. }
      apply (LR _ _ _ _ _ _ Er Hh). apply C4; [right; eapply nth_error_In; eauto|left; auto]. }
    destruct (unpack_rows _ rs ltac:(cbn in *; lia) FN) as (ds & U1 & U2). rewrite U1. cbn [bind multi_init]. rewrite U2. cbn [bind]. eexists. split; [reflexivity|].
    cbn [mu_fs channel_count channels]. rewrite map_length. split; [reflexivity|]. split; [symmetry; exact HL|reflexivity].
Qed.

Lemma apply_value func args : (forall m e, func args = Err e -> mono_apply m func args = Err e) /\
  (forall m l, func args = Ok (arr1 l) -> mono_apply m func args = Ok (Mono l (m_fs m))) /\
  (forall m l, func args = Ok (arr1 l) -> multi_apply m func args = Ok (Multi (map (fun c => Mono l (m_fs c)) (channels m)) (mu_fs m) (channel_count m))) /\
  (forall m e, func args = Err e -> channels m <> [] -> multi_apply m func args = Err e).
Proof.
  unfold mono_apply, multi_apply. repeat split; intros m.
  - intros e E. rewrite E. reflexivity.
  - intros l E. rewrite E. cbn [bind]. apply mono_set_arr1.
  - intros l E. rewrite E. cbn [bind]. rewrite (mapM_ok _ (fun c => Mono l (m_fs c))) by (intros; apply mono_set_arr1). reflexivity.
  - intros e E H. rewrite E. destruct (channels m); [congruence|]. reflexivity.
Qed.


Lemma values_example : convolution [1; 2] [3; 4] [3; 10; 8] /\ length_regular copy_resampler /\
  consistent 2 (Multi [Mono [1] 1; Mono [2] 1] 1 2) /\ Forall2 (fun c r => copy_resampler 1 2 (m_sig c) = Ok r) [Mono [1] 1; Mono [2] 1] [[1]; [2]].
Proof.
  split.
  - replace [3; 10; 8] with (convolve [1; 2] [3; 4]) by (cbn; repeat f_equal; lra). apply convolve_pairs.
  - split; [intros f g l l' r r' E E'; injection E as <-; injection E' as <-; auto|]. split.
    + split; [reflexivity|]. split; [reflexivity|]. split; intros; cbn in *; intuition; subst; reflexivity.
    + repeat constructor.
Qed.
