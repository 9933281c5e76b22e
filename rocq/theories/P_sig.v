(** Proofs about the model of sig.py. *)
From Verif Require Import Base BaseFacts M_utils S_utils P_utils P_utils2 M_sig.
Open Scope R_scope.

(** ** arrays in one dimension *)
Lemma asarray_arr1 l : asarray_1d (arr1 l) = Ok (arr1 l).
Proof.
  destruct (asarray_1d_cases (arr1 l)) as [[_ E]|[E _]]; unfold nd_wf, arr1 in *; cbn in *.
  - lia.
  - exact E.
  - destruct (negb (Nat.eqb (length l) 1)); cbn in E; lia.
Qed.

Lemma mono_set_arr1 m l : mono_set m (arr1 l) = Ok (Mono l (m_fs m)).
Proof. unfold mono_set. rewrite asarray_arr1. reflexivity. Qed.

Lemma mono_init_arr1 l fs : mono_init (arr1 l) fs = Ok (Mono l fs).
Proof. unfold mono_init. rewrite asarray_arr1. reflexivity. Qed.

Lemma mapM_ok {A B} (f : A -> res B) (g : A -> B) l :
  (forall a, In a l -> f a = Ok (g a)) -> mapM f l = Ok (map g l).
Proof.
  induction l as [|a l IH]; intros H; cbn; [reflexivity|].
  rewrite H by (left; auto). cbn. rewrite IH by (intros; apply H; right; auto). reflexivity.
Qed.

Lemma mapM_inv {A B} (f : A -> res B) l bs :
  mapM f l = Ok bs -> Forall2 (fun a b => f a = Ok b) l bs.
Proof.
  revert bs; induction l as [|a l IH]; intros bs; cbn.
  - intros [= <-]. constructor.
  - destruct (f a) as [b|] eqn:E; cbn; [|discriminate].
    destruct (mapM f l) as [bs'|]; cbn; [|discriminate]. intros [= <-]. constructor; auto.
Qed.

Lemma Forall2_length' {A B} (P : A -> B -> Prop) l m : Forall2 P l m -> length l = length m.
Proof. induction 1; cbn; lia. Qed.

(** ** truncation *)
Lemma py_int_nonneg x : 0 <= x -> (0 <= py_int x)%Z /\ IZR (py_int x) <= x < IZR (py_int x) + 1.
Proof.
  intros H. unfold py_int. replace (Rleb 0 x) with true by (symmetry; apply Rleb_true; auto).
  destruct (base_Int_part x) as [H1 H2]. split; [|lra].
  apply le_IZR. assert (-1 < Int_part x)%Z; [|apply IZR_le; lia].
  apply lt_IZR. lra.
Qed.

Lemma py_int_mono x y : 0 <= x <= y -> (py_int x <= py_int y)%Z.
Proof.
  intros H. destruct (py_int_nonneg x) as [_ Hx]; [lra|]. destruct (py_int_nonneg y) as [_ Hy]; [lra|].
  assert (py_int x < py_int y + 1)%Z; [|lia]. apply lt_IZR. rewrite plus_IZR. lra.
Qed.

(** ** trim.  The samples kept by a trim: index [i] stays iff its start time lies
    in the span, where the span is cut to whole samples. *)
Lemma trim_slice_spec l fs start stop :
  (0 < fs)%Z -> 0 <= start -> 0 <= stop ->
  let a := Z.to_nat (py_int (start * IZR fs)) in
  let b := Z.to_nat (py_int (stop * IZR fs)) in
  trim_slice l fs start stop = firstn (Nat.min b (length l) - a) (skipn a l).
Proof.
  intros Hf Hs Ht. cbn zeta. unfold trim_slice, slice.
  assert (Hf' : 0 < IZR fs) by (apply IZR_lt; auto).
  destruct (py_int_nonneg (start * IZR fs)) as [A _]; [nra|].
  destruct (py_int_nonneg (stop * IZR fs)) as [B _]; [nra|].
  set (za := py_int (start * IZR fs)) in *. set (zb := py_int (stop * IZR fs)) in *.
  unfold norm_idx. destruct (Z.ltb_spec za 0); [lia|]. destruct (Z.ltb_spec zb 0); [lia|].
  replace (Z.to_nat (Z.min zb (Z.of_nat (length l)))) with (Nat.min (Z.to_nat zb) (length l)) by lia.
  destruct (Z_le_dec za (Z.of_nat (length l))) as [L|L].
  - replace (Z.to_nat (Z.min za (Z.of_nat (length l)))) with (Z.to_nat za) by lia. reflexivity.
  - rewrite !skipn_all2 by lia. rewrite !firstn_nil. reflexivity.
Qed.

Lemma trim_slice_nth l fs start stop :
  (0 < fs)%Z -> 0 <= start -> 0 <= stop ->
  let a := Z.to_nat (py_int (start * IZR fs)) in
  let b := Z.to_nat (py_int (stop * IZR fs)) in
  let t := trim_slice l fs start stop in
  length t = (Nat.min b (length l) - a)%nat /\
  forall i, (i < length t)%nat -> nth_error t i = nth_error l (a + i).
Proof.
  intros Hf Hs Ht. cbn zeta. rewrite trim_slice_spec by auto. cbn zeta.
  set (a := Z.to_nat (py_int (start * IZR fs))). set (b := Z.to_nat (py_int (stop * IZR fs))).
  rewrite firstn_length, skipn_length. split; [lia|].
  intros i Hi. rewrite nth_error_firstn by lia. apply nth_error_skipn.
Qed.

Lemma floor_index fs start i :
  (0 < fs)%Z -> 0 <= start ->
  (Z.to_nat (py_int (start * IZR fs)) <= i)%nat <-> start < (INR i + 1) / IZR fs.
Proof.
  intros Hf Hs. assert (Hf' : 0 < IZR fs) by (apply IZR_lt; auto).
  destruct (py_int_nonneg (start * IZR fs)) as [A B]; [nra|].
  set (z := py_int (start * IZR fs)) in *.
  assert (E : start < (INR i + 1) / IZR fs <-> start * IZR fs < INR i + 1).
  { split; intros H.
    - apply Rmult_lt_compat_r with (r := IZR fs) in H; auto.
      replace ((INR i + 1) / IZR fs * IZR fs) with (INR i + 1) in H by (field; lra). lra.
    - apply Rmult_lt_reg_r with (IZR fs); auto.
      replace ((INR i + 1) / IZR fs * IZR fs) with (INR i + 1) by (field; lra). lra. }
  rewrite E. rewrite INR_IZR_INZ. split; intros H.
  - assert (IZR z <= IZR (Z.of_nat i)) by (apply IZR_le; lia). lra.
  - assert (z < Z.of_nat i + 1)%Z; [|lia]. apply lt_IZR. rewrite plus_IZR. lra.
Qed.

(** in time: sample i (covering [i/fs, (i+1)/fs)) is kept iff it ends after the
    start and ends no later than the stop *)
Lemma mono_trim_spec m start stop dur :
  (0 < m_fs m)%Z -> 0 <= start ->
  let stop' := match dur with Some d => start + d | None => stop end in
  0 <= stop' ->
  if Rltb start (INR (mono_len m) / IZR (m_fs m)) then
    exists m', mono_trim m start stop dur = Ok m' /\ m_fs m' = m_fs m /\
      m_sig m' = trim_slice (m_sig m) (m_fs m) start stop'
  else mono_trim m start stop dur = Err AssertionError.
Proof.
  intros Hf Hs stop' Hstop. unfold mono_trim.
  destruct (Rltb start _); cbn [assert_ bind]; [|reflexivity].
  rewrite mono_set_arr1. eexists. split; [reflexivity|]. cbn. auto.
Qed.

Lemma multi_trim_spec m start stop dur :
  (0 < mu_fs m)%Z -> channels m <> [] ->
  Forall (fun c => m_fs c = mu_fs m) (channels m) ->
  let stop' := match dur with Some d => start + d | None => stop end in
  if Rltb start (INR (mono_len (hd (Mono [] 0) (channels m))) / IZR (mu_fs m)) then
    multi_trim m start stop dur =
      Ok (Multi (map (fun c => Mono (trim_slice (m_sig c) (mu_fs m) start stop') (mu_fs m)) (channels m))
                (mu_fs m) (channel_count m)) /\
    trim_audio m start stop' = multi_trim m start stop dur
  else multi_trim m start stop dur = Err AssertionError /\
       trim_audio m start stop' = Err AssertionError.
Proof.
  intros Hf Hc HF stop'. unfold multi_trim, trim_audio, multi_len.
  destruct (channels m) as [|c cs] eqn:E; [congruence|]. cbn [hd bind].
  destruct (Rltb start _) eqn:H; cbn [assert_ bind]; [|auto].
  assert (A : forall g, (forall d, In d (c :: cs) -> g d = mu_fs m) ->
    mapM (fun c0 => mono_set c0 (arr1 (trim_slice (m_sig c0) (g c0) start stop'))) (c :: cs) =
    Ok (map (fun c0 => Mono (trim_slice (m_sig c0) (mu_fs m) start stop') (mu_fs m)) (c :: cs))).
  { intros g Hg. apply mapM_ok.
    intros d Hd. rewrite mono_set_arr1, Hg by auto.
    rewrite Forall_forall in HF. rewrite (HF d) by auto. reflexivity. }
  fold stop'. rewrite !(A m_fs) by (intros; rewrite Forall_forall in HF; auto).
  rewrite (A (fun _ => mu_fs m)) by auto. auto.
Qed.

(** ** convolution *)
Lemma length_convolve a h :
  length (convolve a h) = match a, h with [], _ | _, [] => 0%nat | _, _ => (length a + length h - 1)%nat end.
Proof. unfold convolve. destruct a, h; cbn [length]; rewrite ?map_length, ?seq_length; reflexivity. Qed.

Lemma asarray_wf_data {A} (h h' : nd A) : asarray_1d h = Ok h' -> data h' = data h.
Proof.
  unfold asarray_1d, squeeze. cbn [shape data].
  destruct (Nat.eqb _ 0); [intros [= <-]; reflexivity|].
  destruct (Nat.ltb _ _); [discriminate|]. intros [= <-]. reflexivity.
Qed.

Lemma mono_conv_inv c h c' : mono_conv c h = Ok c' ->
  m_fs c' = m_fs c /\ m_sig c' = convolve (m_sig c) (data h).
Proof.
  unfold mono_conv. destruct (asarray_1d h) as [h'|] eqn:E; cbn; [|discriminate].
  rewrite mono_set_arr1. intros [= <-]. cbn. rewrite (asarray_wf_data _ _ E). auto.
Qed.

(** ** invariant of MultiSignal under any history *)
Definition wf_multi (n : nat) (m : multi) : Prop :=
  channel_count m = n /\ length (channels m) = n /\
  Forall (fun c => m_fs c = mu_fs m) (channels m) /\
  exists L, Forall (fun c => length (m_sig c) = L) (channels m).

(** a convolution that covers all channels with filters of one length *)
Definition op_ok (n : nat) (o : mop) : Prop :=
  match o with
  | OpConv irs => (n <= length irs)%nat /\ exists K, Forall (fun h => length (data h) = K) irs
  | _ => True
  end.

Lemma conv_zip_wf f L K cs irs cs' :
  Forall (fun c => m_fs c = f) cs -> Forall (fun c => length (m_sig c) = L) cs ->
  Forall (fun h => length (data h) = K) irs -> (length cs <= length irs)%nat ->
  conv_zip cs irs = Ok cs' ->
  length cs' = length cs /\ Forall (fun c => m_fs c = f) cs' /\
  exists L', Forall (fun c => length (m_sig c) = L') cs'.
Proof.
  intros F1 F2 F3 Hl H.
  assert (G : length cs' = length cs /\ Forall (fun c => m_fs c = f) cs' /\
     Forall (fun c => length (m_sig c) = match L, K with O, _ | _, O => O | _, _ => (L + K - 1)%nat end) cs').
  { revert irs cs' F3 Hl H. induction cs as [|c cs IH]; intros irs cs' F3 Hl H.
    - cbn in H. injection H as <-. repeat split; constructor.
    - destruct irs as [|h irs]; [cbn in Hl; lia|]. cbn in H.
      destruct (mono_conv c h) as [c'|] eqn:E1; cbn in H; [|discriminate].
      destruct (conv_zip cs irs) as [t|] eqn:E2; cbn in H; [|discriminate].
      injection H as <-.
      inversion F1 as [|? ? F1a F1b]; inversion F2 as [|? ? F2a F2b]; inversion F3 as [|? ? F3a F3b]; subst.
      destruct (IH F1b F2b irs t F3b) as (I1 & I2 & I3); [cbn in Hl; lia|auto|].
      destruct (mono_conv_inv _ _ _ E1) as [M1 M2].
      split; [cbn; lia|]. split; constructor; auto.
      rewrite M2, length_convolve. destruct (m_sig c), (data h); reflexivity. }
  destruct G as (G1 & G2 & G3). eauto.
Qed.

Section R.
Variable resampler : Z -> Z -> list R -> res (list R).
(** resampling a signal gives a length that depends on the lengths and rates only *)
Hypothesis rs_len : forall f g l l' r r',
  resampler f g l = Ok r -> resampler f g l' = Ok r' -> length l = length l' -> length r = length r'.

Lemma get_signals_ok m g : get_signals m = Ok g -> snd g = map m_sig (channels m).
Proof.
  unfold get_signals. destruct (channels m) as [|c cs]; [intros [= <-]; reflexivity|].
  destruct (forallb _ cs); [|discriminate]. intros [= <-]. reflexivity.
Qed.

Lemma rs_rows_len f g rws rs L :
  mapM (resampler f g) rws = Ok rs -> Forall (fun l => length l = L) rws ->
  forall n, (match rs with r :: _ => length r | [] => n end) = n ->
  Forall (fun r => length r = n) rs.
Proof.
  intros H F n Hn. apply mapM_inv in H.
  destruct H as [|l r rws rs E H]; [constructor|]. subst n.
  inversion F as [|? ? F1 F2]; subst. constructor; auto. clear F.
  induction H as [|l1 r1 rws rs E1 H IH]; constructor.
  - inversion F2; subst. eapply rs_len; eauto.
  - apply IH. inversion F2; auto.
Qed.

Lemma rows_of_concat n (ls : list (list R)) :
  Forall (fun r => length r = n) ls -> rows_of (length ls) n (concat ls) = ls.
Proof.
  induction 1 as [|r ls H F IH]; [reflexivity|]. cbn [length rows_of concat].
  rewrite firstn_app, <- H, Nat.sub_diag, firstn_all, firstn_O, app_nil_r.
  rewrite skipn_app, skipn_all, Nat.sub_diag. cbn [skipn app]. rewrite H, IH. reflexivity.
Qed.

(** resampling two or more channels gives exactly the resampled rows *)
Lemma unpack_rows n (rs : list (list R)) :
  (2 <= length rs)%nat -> Forall (fun r => length r = n) rs ->
  exists ds, unpack (squeeze (Nd [length rs; n] (concat rs))) = Ok ds /\
    forall fs, mapM (fun s => mono_init s fs) ds = Ok (map (fun r => Mono r fs) rs).
Proof.
  intros Hl F. unfold squeeze. cbn [shape data filter].
  replace (Nat.eqb (length rs) 1) with false by (symmetry; apply Nat.eqb_neq; lia). cbn [negb].
  destruct (Nat.eqb_spec n 1) as [->|Hn]; cbn [negb unpack shape data].
  - eexists. split; [reflexivity|]. intros fs.
    rewrite (mapM_ok _ (fun d => Mono (data d) fs)).
    + f_equal. clear Hl. induction F as [|r rs H F IH]; [reflexivity|].
      destruct r as [|x [|y r]]; try discriminate. cbn. f_equal. exact IH.
    + intros a Ha. apply in_map_iff in Ha. destruct Ha as (x & <- & _). reflexivity.
  - rewrite rows_of_concat by auto. eexists. split; [reflexivity|]. intros fs.
    rewrite (mapM_ok _ (fun d => Mono (data d) fs)).
    + f_equal. rewrite map_map. reflexivity.
    + intros a Ha. apply in_map_iff in Ha. destruct Ha as (x & <- & Hx).
      rewrite Forall_forall in F. rewrite <- (F x Hx). apply mono_init_arr1.
Qed.

Lemma resample_data_ok m fs_new ds L :
  (2 <= length (channels m))%nat -> Forall (fun c => length (m_sig c) = L) (channels m) ->
  resample_multi_data resampler m fs_new = Ok ds ->
  exists rs n, mapM (resampler (mu_fs m) fs_new) (map m_sig (channels m)) = Ok rs /\
    length rs = length (channels m) /\ Forall (fun r => length r = n) rs /\
    forall fs, mapM (fun s => mono_init s fs) ds = Ok (map (fun r => Mono r fs) rs).
Proof.
  intros Hl F. unfold resample_multi_data.
  destruct (get_signals m) as [g|] eqn:E; cbn [bind]; [|discriminate].
  rewrite (get_signals_ok _ _ E).
  remember (map m_sig (channels m)) as rws eqn:Er.
  assert (Hl2 : (2 <= length rws)%nat) by (subst rws; rewrite map_length; auto).
  destruct rws as [|r0 rws0]; [cbn in Hl2; lia|].
  destruct (mapM (resampler (mu_fs m) fs_new) (r0 :: rws0)) as [rs|] eqn:E2; cbn [bind]; [|discriminate].
  pose proof (Forall2_length' _ _ _ (mapM_inv _ _ _ E2)) as HL.
  assert (Fn : Forall (fun r => length r = match rs with r :: _ => length r | [] => 0%nat end) rs).
  { eapply rs_rows_len; [exact E2| |destruct rs; reflexivity].
    rewrite Er. apply Forall_map. exact F. }
  intros H. destruct (unpack_rows _ rs ltac:(lia) Fn) as (ds' & U1 & U2).
  rewrite U1 in H. injection H as <-.
  exists rs. eexists. split; [reflexivity|]. split.
  { rewrite <- HL, Er, map_length. reflexivity. }
  split; [exact Fn|exact U2].
Qed.

Lemma multi_step_wf n m o m' :
  (2 <= n)%nat -> wf_multi n m -> op_ok n o -> multi_step resampler m o = Ok m' -> wf_multi n m'.
Proof.
  intros Hn (W1 & W2 & W3 & L & W4) Ho. destruct o as [a b d|irs|f]; cbn [multi_step].
  - (* trim *)
    unfold multi_trim. destruct (multi_len m) as [k|]; cbn [bind]; [|discriminate].
    destruct (Rltb a _); cbn [assert_ bind]; [|discriminate].
    set (st := match d with Some x => a + x | None => b end).
    rewrite (mapM_ok _ (fun c => Mono (trim_slice (m_sig c) (m_fs c) a st) (m_fs c)))
      by (intros; apply mono_set_arr1).
    cbn [bind]. intros [= <-]. unfold wf_multi. cbn [channels mu_fs channel_count].
    rewrite map_length. split; auto. split; auto. split.
    + apply Forall_map. cbn. exact W3.
    + exists (norm_idx L (py_int (st * IZR (mu_fs m))) - norm_idx L (py_int (a * IZR (mu_fs m))))%nat.
      apply Forall_map. rewrite Forall_forall in *. intros c Hc. cbn [m_sig].
      unfold trim_slice. rewrite length_slice, (W4 c Hc), (W3 c Hc). reflexivity.
  - (* conv *)
    destruct Ho as (Hl & K & FK). unfold multi_conv.
    destruct (conv_zip (channels m) irs) as [cs|] eqn:E; cbn [bind]; [|discriminate].
    intros [= <-]. destruct (conv_zip_wf _ _ _ _ _ _ W3 W4 FK ltac:(lia) E) as (G1 & G2 & L' & G3).
    unfold wf_multi. cbn. rewrite G1. split; auto. split; auto. split; auto. eauto.
  - (* resample *)
    unfold multi_resample. destruct (Z.eqb f (mu_fs m)).
    { intros [= <-]. split; auto. split; auto. split; auto. eauto. }
    destruct (resample_multi_data resampler m f) as [ds|] eqn:E; cbn [bind]; [|discriminate].
    destruct (resample_data_ok m f ds L) as (rs & k & R1 & R2 & R3 & R4); auto; [lia|].
    unfold multi_init. rewrite R4. cbn [bind]. intros [= <-].
    unfold wf_multi. cbn. rewrite !map_length. split; [congruence|]. split; [congruence|]. split.
    + apply Forall_map. rewrite Forall_forall. auto.
    + exists k. apply Forall_map. cbn. exact R3.
Qed.

Lemma multi_run_wf n h : (2 <= n)%nat -> Forall (op_ok n) h ->
  forall m m', wf_multi n m -> run (multi_step resampler) m h = Ok m' -> wf_multi n m'.
Proof.
  intros Hn. induction 1 as [|o h Ho F IH]; cbn [run]; intros m m' W H.
  - injection H as <-. auto.
  - destruct (multi_step resampler m o) as [m1|] eqn:E; cbn [bind] in H; [|discriminate].
    eapply IH; [|exact H]. eapply multi_step_wf; eauto.
Qed.

Lemma multi_init_wf (sigs : list (list R)) fs L :
  Forall (fun l => length l = L) sigs ->
  exists m, multi_init (map arr1 sigs) (Some fs) = Ok m /\ wf_multi (length sigs) m /\
            map m_sig (channels m) = sigs /\ mu_fs m = fs.
Proof.
  intros F. unfold multi_init.
  rewrite (mapM_ok _ (fun s => Mono (data s) fs)).
  2:{ intros a Ha. apply in_map_iff in Ha. destruct Ha as (l & <- & _). apply mono_init_arr1. }
  cbn [bind]. eexists. split; [reflexivity|]. unfold wf_multi. cbn.
  rewrite !map_length. split; [|split; [|reflexivity]].
  - split; auto. split; auto. split.
    + rewrite map_map. apply Forall_map. rewrite Forall_forall. auto.
    + exists L. rewrite map_map. apply Forall_map. cbn. exact F.
  - rewrite !map_map. cbn. apply map_id.
Qed.

(** ** AmbiBSignal *)
Definition wxyz_ok (a : ambib) : Prop :=
  map m_sig (channels (base a)) = [aW a; aX a; aY a; aZ a].

Lemma ambib_init_ok d f a : ambib_init d f = Ok a -> wxyz_ok a.
Proof.
  unfold ambib_init. destruct (multi_init d f) as [b|]; cbn [bind]; [|discriminate].
  destruct (channels b) as [|w [|x [|y [|z [|? ?]]]]] eqn:E; try discriminate.
  rewrite !asarray_arr1. cbn [bind data arr1]. intros [= <-]. unfold wxyz_ok. cbn. rewrite E. reflexivity.
Qed.

Lemma ambib_resample_ok a f a' :
  f <> mu_fs (base a) -> ambib_step resampler a (OpResample f) = Ok a' -> wxyz_ok a'.
Proof.
  intros Hf. cbn. unfold ambib_resample. apply Z.eqb_neq in Hf. rewrite Hf.
  destruct (resample_multi_data resampler (base a) f) as [d|]; cbn [bind]; [|discriminate].
  apply ambib_init_ok.
Qed.

Lemma ambib_resample_keeps a f a' :
  wxyz_ok a -> ambib_step resampler a (OpResample f) = Ok a' -> wxyz_ok a'.
Proof.
  intros W H. destruct (Z.eq_dec f (mu_fs (base a))) as [->|Hf].
  - cbn in H. unfold ambib_resample in H. rewrite Z.eqb_refl in H. injection H as <-. auto.
  - eapply ambib_resample_ok; eauto.
Qed.

Lemma run_app {S} (step : S -> mop -> res S) h1 h2 s s' :
  run step s (h1 ++ h2) = Ok s' <-> exists s1, run step s h1 = Ok s1 /\ run step s1 h2 = Ok s'.
Proof.
  revert s; induction h1 as [|o h1 IH]; intros s; cbn [app run].
  - split; [eauto|]. intros (s1 & [= <-] & H). auto.
  - destruct (step s o) as [s1|]; cbn [bind]; [apply IH|]. split; [discriminate|].
    intros (? & ? & _). discriminate.
Qed.

Lemma ambib_resamples_ok h : Forall (fun o => exists f, o = OpResample f) h ->
  forall a a', wxyz_ok a -> run (ambib_step resampler) a h = Ok a' -> wxyz_ok a'.
Proof.
  induction 1 as [|o h [f ->] F IH]; cbn [run]; intros a a' W H.
  - injection H as <-. auto.
  - destruct (ambib_step resampler a (OpResample f)) as [a1|] eqn:E; cbn [bind] in H; [|discriminate].
    eapply IH; [|exact H]. eapply ambib_resample_keeps; eauto.
Qed.

Lemma ambib_hist_ok h f rs a a1 a' :
  run (ambib_step resampler) a h = Ok a1 -> f <> mu_fs (base a1) ->
  Forall (fun o => exists g, o = OpResample g) rs ->
  run (ambib_step resampler) a (h ++ OpResample f :: rs) = Ok a' -> wxyz_ok a'.
Proof.
  intros H1 Hf F H. apply run_app in H. destruct H as (s1 & E1 & E2).
  rewrite H1 in E1. injection E1 as <-. cbn [run] in E2.
  destruct (ambib_step resampler a1 (OpResample f)) as [a2|] eqn:E; cbn [bind] in E2; [|discriminate].
  eapply ambib_resamples_ok; eauto. eapply ambib_resample_ok; eauto.
Qed.
End R.

(** ** argmax *)
Lemma argmax_from_spec l : forall best ibest i,
  (ibest < i)%nat ->
  let k := argmax_from best ibest i l in
  (k = ibest /\ (forall j, (j < length l)%nat -> nth j l 0 <= best)) \/
  (exists j, (j < length l)%nat /\ k = (i + j)%nat /\ best < nth j l 0 /\
     (forall j', (j' < length l)%nat -> nth j' l 0 <= nth j l 0) /\
     (forall j', (j' < j)%nat -> nth j' l 0 < nth j l 0)).
Proof.
  induction l as [|x l IH]; intros best ibest i Hi; cbn [argmax_from].
  - left. split; auto. intros j Hj. cbn in Hj. lia.
  - destruct (Rltb best x) eqn:E; [apply Rltb_true in E|apply Rltb_false in E].
    + right. destruct (IH x i (S i) ltac:(lia)) as [[K1 K2]|(j & J1 & J2 & J3 & J4 & J5)]; cbn zeta in *.
      * exists 0%nat. rewrite K1. split; [cbn; lia|]. split; [lia|]. split; [exact E|]. split.
        -- intros [|j'] Hj'; cbn [nth]; [lra|]. apply K2. cbn in Hj'. lia.
        -- intros j' Hj'. lia.
      * exists (S j). rewrite J2. split; [cbn; lia|]. split; [lia|]. cbn [nth]. split; [lra|]. split.
        -- intros [|j'] Hj'; [lra|]. apply J4. cbn in Hj'. lia.
        -- intros [|j'] Hj'; [lra|]. apply J5. lia.
    + destruct (IH best ibest (S i) ltac:(lia)) as [[K1 K2]|(j & J1 & J2 & J3 & J4 & J5)]; cbn zeta in *.
      * left. split; auto. intros [|j] Hj; cbn [nth]; [lra|]. apply K2. cbn in Hj. lia.
      * right. exists (S j). rewrite J2. split; [cbn; lia|]. split; [lia|]. cbn [nth]. split; [lra|]. split.
        -- intros [|j'] Hj'; [lra|]. apply J4. cbn in Hj'. lia.
        -- intros [|j'] Hj'; [lra|]. apply J5. lia.
Qed.

Lemma argmax_spec l : l <> [] ->
  exists k, argmax l = Ok k /\ (k < length l)%nat /\
    (forall j, (j < length l)%nat -> nth j l 0 <= nth k l 0) /\
    (forall j, (j < k)%nat -> nth j l 0 < nth k l 0).
Proof.
  destruct l as [|x l]; intros H; [congruence|]. cbn [argmax].
  eexists. split; [reflexivity|].
  destruct (argmax_from_spec l x 0 1 ltac:(lia)) as [[K1 K2]|(j & J1 & J2 & J3 & J4 & J5)]; cbn zeta in *.
  - rewrite K1. split; [cbn; lia|]. split; [|intros; lia].
    intros [|j] Hj; cbn [nth]; [lra|]. apply K2. cbn in Hj. lia.
  - rewrite J2. split; [cbn; lia|]. cbn [nth plus]. split.
    + intros [|j'] Hj'; [lra|]. apply J4. cbn in Hj'. lia.
    + intros [|j'] Hj'; [lra|]. apply J5. lia.
Qed.

(** ** nearest_idx *)
Lemma acos_decr a b : -1 <= a <= 1 -> -1 <= b <= 1 -> (acos a <= acos b <-> b <= a).
Proof.
  intros Ha Hb. pose proof (acos_bound a). pose proof (acos_bound b). split; intros H1.
  - destruct (Rle_lt_dec b a) as [|L]; auto. exfalso.
    assert (cos (acos b) <= cos (acos a)).
    { destruct H1 as [H1|H1]; [left; apply cos_decreasing_1; lra|right; rewrite H1; auto]. }
    rewrite !cos_acos in H2 by auto. lra.
  - destruct (Rle_lt_dec (acos a) (acos b)) as [|L]; auto. exfalso.
    assert (cos (acos a) < cos (acos b)) by (apply cos_decreasing_1; lra).
    rewrite !cos_acos in H2 by auto. lra.
Qed.

Lemma nth_combine_map {A B C} (f : A -> B -> C) la lb i a b c :
  nth_error la i = Some a -> nth_error lb i = Some b ->
  nth i (map (fun p => f (fst p) (snd p)) (combine la lb)) c = f a b.
Proof.
  revert lb i; induction la as [|x la IH]; intros [|y lb] [|i]; cbn; try discriminate; auto.
  congruence.
Qed.

Lemma nearest_idx_spec h azi zen :
  length (h_azi h) = length (h_zen h) -> h_azi h <> [] ->
  exists k a z, nearest_idx h azi zen = Ok k /\
    nth_error (h_azi h) k = Some a /\ nth_error (h_zen h) k = Some z /\
    (forall j a' z', nth_error (h_azi h) j = Some a' -> nth_error (h_zen h) j = Some z' ->
       exists d d', haversine azi zen a z 1 = Some d /\ haversine azi zen a' z' 1 = Some d' /\
         d <= d' /\ ((j < k)%nat -> d < d')).
Proof.
  intros Hl Hne. unfold nearest_idx.
  set (l := map _ (combine (h_azi h) (h_zen h))).
  assert (Hlen : length l = length (h_azi h)).
  { unfold l. rewrite map_length, combine_length. lia. }
  assert (Hl0 : l <> []).
  { intros E. rewrite E in Hlen. destruct (h_azi h); [congruence|cbn in Hlen; lia]. }
  destruct (argmax_spec l Hl0) as (k & E & Hk & Hmax & Hfirst).
  destruct (nth_error (h_azi h) k) as [a|] eqn:Ea; [|apply nth_error_None in Ea; lia].
  destruct (nth_error (h_zen h) k) as [z|] eqn:Ez; [|apply nth_error_None in Ez; lia].
  exists k, a, z. split; auto. split; auto. split; auto.
  intros j a' z' Ha' Hz'. rewrite !haversine_acos. do 2 eexists. split; [reflexivity|]. split; [reflexivity|].
  assert (Hj : (j < length l)%nat).
  { rewrite Hlen. apply nth_error_Some. congruence. }
  assert (N1 : nth k l 0 = dot3 (dir2cart azi zen) (dir2cart a z)).
  { unfold l. rewrite (nth_combine_map (fun p q => dot3 (sph2cart azi zen 1) (sph2cart p q 1)) _ _ k a z) by auto.
    rewrite <- !dir2cart_sph2cart. reflexivity. }
  assert (N2 : nth j l 0 = dot3 (dir2cart azi zen) (dir2cart a' z')).
  { unfold l. rewrite (nth_combine_map (fun p q => dot3 (sph2cart azi zen 1) (sph2cart p q 1)) _ _ j a' z') by auto.
    rewrite <- !dir2cart_sph2cart. reflexivity. }
  pose proof (Hmax j Hj) as HM. rewrite N1, N2 in HM.
  assert (B1 : -1 <= dot3 (dir2cart azi zen) (dir2cart a z) <= 1)
    by (apply unit_dot_bound; apply dir2cart_unit).
  assert (B2 : -1 <= dot3 (dir2cart azi zen) (dir2cart a' z') <= 1)
    by (apply unit_dot_bound; apply dir2cart_unit).
  split.
  - rewrite !Rmult_1_l. apply acos_decr; auto.
  - intros Hjk. rewrite !Rmult_1_l. apply Rnot_le_lt. intros HL. apply (proj1 (acos_decr _ _ B2 B1)) in HL.
    pose proof (Hfirst j Hjk) as HF. rewrite N1, N2 in HF.
    apply (Rlt_irrefl _ (Rlt_le_trans _ _ _ HF HL)).
Qed.

Lemma nearest_hrirs_spec h azi zen :
  length (h_azi h) = length (h_zen h) -> h_azi h <> [] ->
  length (h_left h) = length (h_azi h) -> length (h_right h) = length (h_azi h) ->
  exists k l r, nearest_idx h azi zen = Ok k /\ nearest_hrirs h azi zen = Ok (l, r) /\
    nth_error (h_left h) k = Some l /\ nth_error (h_right h) k = Some r.
Proof.
  intros Hl Hne HL HR. destruct (nearest_idx_spec h azi zen Hl Hne) as (k & a & z & E & Ea & _ & _).
  assert (Hk : (k < length (h_azi h))%nat) by (apply nth_error_Some; congruence).
  unfold nearest_hrirs. rewrite E. cbn [bind].
  destruct (nth_error (h_left h) k) as [l|] eqn:El; [|apply nth_error_None in El; lia].
  destruct (nth_error (h_right h) k) as [r|] eqn:Er; [|apply nth_error_None in Er; lia].
  exists k, l, r. split; auto. split; [|auto].
  unfold index. destruct (Z.ltb_spec (Z.of_nat k) 0); [lia|].
  replace ((0 <=? Z.of_nat k)%Z && (Z.of_nat k <? Z.of_nat (length (h_left h)))%Z)%bool with true
    by (symmetry; apply andb_true_iff; split; [apply Z.leb_le|apply Z.ltb_lt]; lia).
  replace ((0 <=? Z.of_nat k)%Z && (Z.of_nat k <? Z.of_nat (length (h_right h)))%Z)%bool with true
    by (symmetry; apply andb_true_iff; split; [apply Z.leb_le|apply Z.ltb_lt]; lia).
  rewrite Nat2Z.id, El, Er. reflexivity.
Qed.

(** ** apply *)
Lemma mono_apply_indep m m' func args :
  m_fs m = m_fs m' -> mono_apply m func args = mono_apply m' func args.
Proof. intros H. unfold mono_apply, mono_set. rewrite H. reflexivity. Qed.

Lemma multi_apply_indep m m' func args :
  length (channels m) = length (channels m') -> map m_fs (channels m) = map m_fs (channels m') ->
  mu_fs m = mu_fs m' -> channel_count m = channel_count m' ->
  multi_apply m func args = multi_apply m' func args.
Proof.
  intros _ H Hf Hc. unfold multi_apply. rewrite Hf, Hc.
  replace (mapM (fun c => let* v := func args in mono_set c v) (channels m'))
    with (mapM (fun c => let* v := func args in mono_set c v) (channels m)); [reflexivity|].
  clear Hf Hc. revert H. generalize (channels m) (channels m').
  induction l as [|c l IH]; intros [|c' l'] H; try discriminate; [reflexivity|].
  cbn [mapM]. injection H as H1 H2. rewrite (IH l' H2).
  replace (let* v := func args in mono_set c v) with (let* v := func args in mono_set c' v); [reflexivity|].
  unfold mono_set. rewrite H1. reflexivity.
Qed.
