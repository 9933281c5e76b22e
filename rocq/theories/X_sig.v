(** Final form of the lemmas on sig.py, and examples. *)
From Verif Require Import Base BaseFacts M_utils S_utils P_utils P_utils2 M_sig S_sig P_sig.
Open Scope R_scope.

Lemma floor_index_le fs stop i :
  (0 < fs)%Z -> 0 <= stop ->
  (i < Z.to_nat (py_int (stop * IZR fs)))%nat <-> INR (S i) / IZR fs <= stop.
Proof.
  intros Hf Hs. assert (Hf' : 0 < IZR fs) by (apply IZR_lt; auto).
  destruct (floor_index fs stop i Hf Hs) as [A B]. rewrite S_INR.
  destruct (Rle_lt_dec ((INR i + 1) / IZR fs) stop) as [L|L].
  - split; auto. intros _. destruct (Nat.lt_ge_cases i (Z.to_nat (py_int (stop * IZR fs)))); auto.
    apply A in H. lra.
  - split; [|lra]. intros H. apply B in L. lia.
Qed.

Lemma trim_time_span l fs start stop :
  (0 < fs)%Z -> 0 <= start -> 0 <= stop -> time_span l fs start stop (trim_slice l fs start stop).
Proof.
  intros Hf Hs Ht. rewrite trim_slice_spec by auto. cbn zeta.
  pose proof (fun i => floor_index fs start i Hf Hs) as FA.
  pose proof (fun i => floor_index_le fs stop i Hf Ht) as FB.
  set (a := Z.to_nat (py_int (start * IZR fs))) in *.
  set (b := Z.to_nat (py_int (stop * IZR fs))) in *.
  exists (firstn a l), (skipn (Nat.min b (length l) - a) (skipn a l)).
  rewrite firstn_skipn, firstn_skipn. split; [reflexivity|].
  intros i Hi. rewrite !firstn_length, skipn_length.
  rewrite S_INR in *. rewrite <- FA. rewrite <- S_INR, <- FB. lia.
Qed.

Lemma mono_trim_final m start stop dur :
  (0 < m_fs m)%Z -> 0 <= start ->
  0 <= match dur with Some d => start + d | None => stop end ->
  (start < INR (length (m_sig m)) / IZR (m_fs m) ->
     exists m', mono_trim m start stop dur = Ok m' /\ m_fs m' = m_fs m /\
       time_span (m_sig m) (m_fs m) start
         match dur with Some d => start + d | None => stop end (m_sig m')) /\
  (INR (length (m_sig m)) / IZR (m_fs m) <= start ->
     mono_trim m start stop dur = Err AssertionError).
Proof.
  intros Hf Hs Ht. pose proof (mono_trim_spec m start stop dur Hf Hs Ht) as H. cbn zeta in H.
  unfold mono_len in H.
  destruct (Rltb start _) eqn:E; [apply Rltb_true in E|apply Rltb_false in E].
  - split; [intros _|lra]. destruct H as (m' & H1 & H2 & H3). exists m'. split; auto. split; auto.
    rewrite H3. apply trim_time_span; auto.
  - split; [lra|auto].
Qed.

Lemma multi_trim_final m start stop dur c0 cs :
  (0 < mu_fs m)%Z -> channels m = c0 :: cs ->
  (forall c, In c (channels m) -> m_fs c = mu_fs m) -> 0 <= start ->
  let stop' := match dur with Some d => start + d | None => stop end in
  0 <= stop' ->
  trim_audio m start stop' = multi_trim m start stop dur /\
  (start < INR (length (m_sig c0)) / IZR (mu_fs m) ->
     exists m', multi_trim m start stop dur = Ok m' /\ mu_fs m' = mu_fs m /\
       channel_count m' = channel_count m /\
       Forall2 (fun c c' => m_fs c' = m_fs c /\
                            time_span (m_sig c) (mu_fs m) start stop' (m_sig c'))
               (channels m) (channels m')) /\
  (INR (length (m_sig c0)) / IZR (mu_fs m) <= start ->
     multi_trim m start stop dur = Err AssertionError).
Proof.
  intros Hf Hc HF Hs stop' Ht.
  assert (HF' : Forall (fun c => m_fs c = mu_fs m) (channels m)) by (rewrite Forall_forall; auto).
  pose proof (multi_trim_spec m start stop dur Hf ltac:(congruence) HF') as H. cbn zeta in H.
  fold stop' in H. unfold mono_len in H. rewrite Hc in H. cbn [hd] in H. rewrite <- Hc in H.
  destruct (Rltb start _) eqn:E; [apply Rltb_true in E|apply Rltb_false in E].
  - destruct H as [H1 H2]. split; auto. split; [intros _|lra].
    eexists. split; [exact H1|]. split; auto. split; auto. cbn [channels].
    clear Hc H1 H2 E. induction (channels m) as [|c l IH]; constructor.
    + cbn. rewrite HF by (left; auto). split; auto. apply trim_time_span; auto.
    + apply IH; [|inversion HF'; auto]. intros d Hd. apply HF. right; auto.
  - destruct H as [H1 H2]. split; [congruence|]. split; [lra|auto].
Qed.

Lemma Int_part_IZR k : Int_part (IZR k) = k.
Proof.
  destruct (base_Int_part (IZR k)) as [A B]. apply le_IZR in A.
  assert (k - 1 < Int_part (IZR k))%Z; [|lia]. apply lt_IZR. rewrite minus_IZR. lra.
Qed.
Lemma py_int_IZR k : py_int (IZR k) = k.
Proof.
  unfold py_int. destruct (Rleb 0 (IZR k)); [apply Int_part_IZR|].
  rewrite <- opp_IZR, Int_part_IZR. lia.
Qed.

(** a negative start passes the assertion and selects from the end *)
Lemma negative_start : exists m m' start stop,
  (0 < m_fs m)%Z /\ start < 0 /\ mono_trim m start stop None = Ok m' /\
  m_sig m = [10; 20; 30] /\ m_fs m = 1%Z /\ start = -1 /\ stop = 3 /\ m_sig m' = [30].
Proof.
  exists (Mono [10; 20; 30] 1), (Mono [30] 1), (-1), 3. cbn [m_fs m_sig].
  split; [lia|]. split; [lra|]. split; [|auto 6].
  unfold mono_trim, mono_len. cbn [m_sig m_fs length].
  replace (Rltb (-1) (INR 3 / 1)) with true by (symmetry; apply Rltb_true; cbn; lra).
  cbn [assert_ bind]. rewrite mono_set_arr1. unfold trim_slice.
  rewrite !Rmult_1_r, !py_int_IZR. reflexivity.
Qed.

(** ** C59 *)
Lemma consistent_wf n m : wf_multi n m <-> consistent n m.
Proof.
  unfold wf_multi, consistent. split; intros (A & B & C & D); (split; [auto|]); (split; [auto|]).
  - rewrite Forall_forall in C. split; auto. destruct D as [L D]. rewrite Forall_forall in D.
    intros c d Hc Hd. rewrite (D c Hc), (D d Hd). auto.
  - split; [rewrite Forall_forall; auto|].
    destruct (channels m) as [|c0 cs]; [exists 0%nat; constructor|].
    exists (length (m_sig c0)). rewrite Forall_forall. intros c Hc. apply D; [auto|left; auto].
Qed.

Lemma admissible_ok n o : admissible n o -> op_ok n o.
Proof.
  destruct o as [a b d|irs|f]; cbn; auto. intros [A B]. split; auto.
  destruct irs as [|h irs]; [exists 0%nat; constructor|].
  exists (length (data h)). rewrite Forall_forall. intros x Hx. apply B; [auto|left; auto].
Qed.

Lemma multi_consistent resampler : length_regular resampler ->
  forall (sigs : list (list R)) fs h,
  (2 <= length sigs)%nat -> (forall s t, In s sigs -> In t sigs -> length s = length t) ->
  (forall o, In o h -> admissible (length sigs) o) ->
  exists m, multi_init (map arr1 sigs) (Some fs) = Ok m /\ map m_sig (channels m) = sigs /\
    forall m', run (multi_step resampler) m h = Ok m' -> consistent (length sigs) m'.
Proof.
  intros Hr sigs fs h Hn Hs Ho.
  assert (F : Forall (fun l => length l = length (hd [] sigs)) sigs).
  { rewrite Forall_forall. destruct sigs as [|s0 sigs]; [cbn in Hn; lia|].
    intros s H. apply Hs; [auto|left; auto]. }
  destruct (multi_init_wf sigs fs _ F) as (m & E & W & M & _).
  exists m. split; auto. split; auto. intros m' R. apply consistent_wf.
  eapply (multi_run_wf resampler Hr); [exact Hn| |exact W|exact R].
  rewrite Forall_forall. intros o H. apply admissible_ok. auto.
Qed.

Lemma conv_too_few : exists m m' irs,
  consistent 2 m /\ multi_conv m irs = Ok m' /\ ~ consistent 2 m'.
Proof.
  exists (Multi [Mono [1] 1; Mono [1] 1] 1 2), (Multi [Mono (convolve [1] [1; 1]) 1; Mono [1] 1] 1 2), [arr1 [1; 1]].
  split; [|split; [reflexivity|]].
  - unfold consistent. cbn. split; auto. split; auto. split; intuition (subst; auto).
  - intros (_ & _ & _ & H). cbn [channels] in H.
    specialize (H (Mono (convolve [1] [1; 1]) 1) (Mono [1] 1)). cbn in H.
    discriminate H; auto.
Qed.

Lemma single_channel_resample resampler l fs fs_new r :
  fs_new <> fs -> resampler fs fs_new l = Ok r -> length r <> 1%nat ->
  multi_resample resampler (Multi [Mono l fs] fs 1) fs_new =
    Ok (Multi (map (fun x => Mono [x] fs_new) r) fs_new (length r)).
Proof.
  intros Hf Hr Hl. unfold multi_resample. cbn [mu_fs].
  replace (Z.eqb fs_new fs) with false by (symmetry; apply Z.eqb_neq; auto).
  unfold resample_multi_data, get_signals. cbn [channels forallb bind snd map m_sig mu_fs mapM].
  rewrite Hr. cbn [bind length]. unfold squeeze. cbn [shape data filter].
  replace (Nat.eqb (length r) 1) with false by (symmetry; apply Nat.eqb_neq; auto).
  cbn [Nat.eqb negb unpack shape data concat]. rewrite app_nil_r. cbn [bind].
  unfold multi_init. rewrite (mapM_ok _ (fun d => Mono (data d) fs_new)).
  - cbn [bind]. rewrite !map_map, map_length. reflexivity.
  - intros d Hd. apply in_map_iff in Hd. destruct Hd as (x & <- & _). reflexivity.
Qed.

Lemma ambib_after_init d f a : ambib_init d f = Ok a ->
  map m_sig (channels (base a)) = [aW a; aX a; aY a; aZ a].
Proof. apply ambib_init_ok. Qed.

Lemma ambib_after_resample resampler h f rs a a1 a' :
  run (ambib_step resampler) a h = Ok a1 -> f <> mu_fs (base a1) ->
  (forall o, In o rs -> is_resample o) ->
  run (ambib_step resampler) a (h ++ OpResample f :: rs) = Ok a' ->
  map m_sig (channels (base a')) = [aW a'; aX a'; aY a'; aZ a'].
Proof.
  intros H1 H2 H3 H4. apply (ambib_hist_ok resampler h f rs a a1 a' H1 H2); auto.
  rewrite Forall_forall. intros o Ho. specialize (H3 o Ho). destruct o; cbn in H3; try contradiction. eauto.
Qed.

Definition ambi0 : list (nd R) := [arr1 [1; 2]; arr1 [3; 4]; arr1 [5; 6]; arr1 [7; 8]].

Lemma ambib_stale : forall resampler, exists a a' b',
  ambib_init ambi0 (Some 1%Z) = Ok a /\
  ambib_step resampler a (OpTrim 0 1 None) = Ok a' /\
  map m_sig (channels (base a')) = [[1]; [3]; [5]; [7]] /\ aW a' = [1; 2] /\
  ambib_step resampler a (OpConv [arr1 []; arr1 []; arr1 []; arr1 []]) = Ok b' /\
  map m_sig (channels (base b')) = [[]; []; []; []] /\ aW b' = [1; 2].
Proof.
  intros rs.
  exists (AmbiB (Multi [Mono [1; 2] 1; Mono [3; 4] 1; Mono [5; 6] 1; Mono [7; 8] 1] 1 4) [1; 2] [3; 4] [5; 6] [7; 8]),
    (AmbiB (Multi [Mono [1] 1; Mono [3] 1; Mono [5] 1; Mono [7] 1] 1 4) [1; 2] [3; 4] [5; 6] [7; 8]),
    (AmbiB (Multi [Mono [] 1; Mono [] 1; Mono [] 1; Mono [] 1] 1 4) [1; 2] [3; 4] [5; 6] [7; 8]).
  split; [reflexivity|]. split; [|auto 6].
  cbn [ambib_step base]. unfold multi_trim, multi_len. cbn [channels bind mu_fs].
  unfold mono_len. cbn [m_sig length].
  replace (Rltb 0 (INR 2 / 1)) with true by (symmetry; apply Rltb_true; cbn; lra).
  cbn [assert_ bind mapM]. rewrite !mono_set_arr1. cbn [bind m_sig m_fs aW aX aY aZ].
  unfold trim_slice. rewrite !Rmult_1_r, !py_int_IZR. reflexivity.
Qed.

(** a reachable history meeting the hypotheses of [multi_consistent] *)
Definition copy_resampler : Z -> Z -> list R -> res (list R) := fun _ _ l => Ok l.
Lemma C59_example : exists m m',
  length_regular copy_resampler /\
  (forall o, In o [OpConv [arr1 [2; 1]; arr1 [1; 0]]; OpResample 2] -> admissible 2 o) /\
  multi_init (map arr1 [[1; 2; 3]; [4; 5; 6]]) (Some 1%Z) = Ok m /\
  run (multi_step copy_resampler) m [OpConv [arr1 [2; 1]; arr1 [1; 0]]; OpResample 2] = Ok m' /\
  mu_fs m' = 2%Z.
Proof.
  eexists. eexists. split.
  { unfold length_regular, copy_resampler. intros. congruence. }
  split.
  { intros o [<-|[<-|[]]]; cbn; auto. split; [lia|]. intuition (subst; auto). }
  split; [reflexivity|]. split; reflexivity.
Qed.

(** ** C61 *)
Lemma mono_apply_ignores m m' func args :
  m_fs m = m_fs m' -> mono_apply m func args = mono_apply m' func args.
Proof. apply mono_apply_indep. Qed.

Lemma multi_apply_same m func args m' :
  multi_apply m func args = Ok m' ->
  forall c d, In c (channels m') -> In d (channels m') -> m_sig c = m_sig d.
Proof.
  unfold multi_apply. intros H.
  destruct (mapM _ (channels m)) as [cs|] eqn:E; cbn [bind] in H; [|discriminate].
  injection H as <-. cbn [channels]. apply mapM_inv in E.
  assert (G : forall c, In c cs -> exists v, func args = Ok v /\ m_sig c = data v).
  { clear -E. induction E as [|a b l l' H F IH]; intros c Hc; [destruct Hc|].
    destruct Hc as [<-|Hc]; [|auto].
    destruct (func args) as [v|]; cbn [bind] in H; [|discriminate]. exists v. split; auto.
    unfold mono_set in H. destruct (asarray_1d v) as [w|] eqn:Ew; cbn [bind] in H; [|discriminate].
    injection H as <-. cbn. eapply asarray_wf_data; eauto. }
  intros c d Hc Hd. destruct (G c Hc) as (v & A & B). destruct (G d Hd) as (w & A' & B'). congruence.
Qed.

(** a unary function ("double every sample") *)
Definition double_all : pyfunc := fun args =>
  match args with [a] => Ok (Nd (shape a) (map (Rmult 2) (data a))) | _ => Err TypeError end.
Lemma apply_raises : exists m func v, func [arr1 (m_sig m)] = Ok v /\ mono_apply m func [] = Err TypeError.
Proof. exists (Mono [1; 2] 1), double_all. eexists. split; reflexivity. Qed.

(** a binary function with a default second argument: the caller's extra argument
    takes the place of the signal *)
Lemma apply_wrong_value : exists m func args v m',
  func (arr1 (m_sig m) :: args) = Ok v /\ mono_apply m func args = Ok m' /\ m_sig m' <> data v.
Proof.
  exists (Mono [1; 2] 1),
    (fun args => match args with a :: _ => Ok (Nd (shape a) (map (Rmult 2) (data a))) | _ => Err TypeError end),
    [arr1 [5; 7]]. eexists. eexists.
  split; [reflexivity|]. split; [reflexivity|]. cbn. intros H. injection H. lra.
Qed.

(** ** C60: a grid of two directions *)
Lemma C60_example : exists h,
  hrirs_init (Arr2 [[1]; [2]] 1) (Arr2 [[3]; [4]] 1) (arr1 [0; PI]) (arr1 [PI / 2; PI / 2]) 48000 = Ok h /\
  length (h_azi h) = length (h_zen h) /\ h_azi h <> [] /\
  length (h_left h) = length (h_azi h) /\ length (h_right h) = length (h_azi h).
Proof. eexists. split; [reflexivity|]. cbn. repeat split; try lia. discriminate. Qed.

Lemma hrirs_init_wf l r a z fs h : hrirs_init l r a z fs = Ok h ->
  length (h_azi h) = length (h_zen h) /\ length (h_left h) = length (h_azi h) /\
  length (h_right h) = length (h_azi h) /\ num_grid_points h = length (h_azi h).
Proof.
  unfold hrirs_init, assert_.
  destruct (Nat.eqb_spec (length (rows l)) (length (rows r))); cbn [bind]; [|discriminate].
  destruct (asarray_1d a) as [a'|]; cbn [bind]; [|discriminate].
  destruct (asarray_1d z) as [z'|]; cbn [bind]; [|discriminate].
  destruct (Nat.eqb_spec (length (data a')) (length (data z'))); cbn [bind]; [|discriminate].
  destruct (Nat.eqb_spec (length (data a')) (length (rows l))); cbn [bind]; [|discriminate].
  intros [= <-]. cbn. repeat split; congruence.
Qed.

Lemma nearest_final l r a z fs h azi zen :
  hrirs_init l r a z fs = Ok h -> h_azi h <> [] ->
  exists k ak zk hl hr, nearest_idx h azi zen = Ok k /\
    nth_error (h_azi h) k = Some ak /\ nth_error (h_zen h) k = Some zk /\
    (forall j a' z', nth_error (h_azi h) j = Some a' -> nth_error (h_zen h) j = Some z' ->
       exists d d', haversine azi zen ak zk 1 = Some d /\ haversine azi zen a' z' 1 = Some d' /\
         d <= d' /\ ((j < k)%nat -> d < d')) /\
    nearest_hrirs h azi zen = Ok (hl, hr) /\
    nth_error (h_left h) k = Some hl /\ nth_error (h_right h) k = Some hr.
Proof.
  intros H Hne. destruct (hrirs_init_wf _ _ _ _ _ _ H) as (A & B & C & _).
  destruct (nearest_idx_spec h azi zen A Hne) as (k & ak & zk & K1 & K2 & K3 & K4).
  destruct (nearest_hrirs_spec h azi zen A Hne B C) as (k' & hl & hr & L1 & L2 & L3 & L4).
  assert (k' = k) by congruence. subst k'.
  exists k, ak, zk, hl, hr. auto 10.
Qed.
