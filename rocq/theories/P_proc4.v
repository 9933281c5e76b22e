(** Proofs about process.py: worker pool, pulsed noise; final form of the filter
    bank lemmas. *)
From Verif Require Import Base BaseFacts M_utils M_sig P_sig M_process S_process P_proc1 P_proc2 P_proc3.
Open Scope R_scope.

(** ** worker pool *)
Lemma nth_error_ext {A} (l m : list A) :
  (forall i, nth_error l i = nth_error m i) -> l = m.
Proof.
  revert m; induction l as [|x l IH]; intros [|y m] H; auto.
  - specialize (H 0%nat). discriminate.
  - specialize (H 0%nat). discriminate.
  - f_equal; [specialize (H 0%nat); cbn in H; congruence|]. apply IH. intros i. apply (H (S i)).
Qed.

Lemma nth_error_skipn {A} (l : list A) a j : nth_error (skipn a l) j = nth_error l (a + j).
Proof.
  revert l; induction a as [|a IH]; intros [|x l]; cbn; auto. destruct j; reflexivity.
Qed.
Lemma nth_error_firstn {A} (l : list A) n j : (j < n)%nat -> nth_error (firstn n l) j = nth_error l j.
Proof.
  revert l j; induction n as [|n IH]; intros l j H; [lia|].
  destruct l as [|x l]; cbn; [destruct j; auto|]. destruct j as [|j]; cbn; auto. apply IH. lia.
Qed.

Lemma length_write_at {A} (l : list A) a v : (a + length v <= length l)%nat ->
  length (write_at l a v) = length l.
Proof. intros H. unfold write_at. rewrite !app_length, firstn_length, skipn_length. lia. Qed.

Lemma nth_error_write_at {A} (l : list A) a v j : (a + length v <= length l)%nat ->
  nth_error (write_at l a v) j =
  if (Nat.leb a j && Nat.ltb j (a + length v))%bool then nth_error v (j - a) else nth_error l j.
Proof.
  intros H. unfold write_at.
  assert (Lf : length (firstn a l) = a) by (rewrite firstn_length; lia).
  destruct (Nat.leb_spec a j) as [H1|H1]; cbn [andb].
  - rewrite nth_error_app2 by lia. rewrite Lf. destruct (Nat.ltb_spec j (a + length v)) as [H2|H2].
    + rewrite nth_error_app1 by lia. auto.
    + rewrite nth_error_app2 by lia. rewrite nth_error_skipn. f_equal. lia.
  - rewrite nth_error_app1 by lia. apply nth_error_firstn. auto.
Qed.

Lemma mapM_firstn_skipn {A B} (f : A -> res B) l r a n :
  mapM f l = Ok r -> mapM f (firstn n (skipn a l)) = Ok (firstn n (skipn a r)).
Proof.
  intros H. apply mapM_inv in H.
  assert (H2 : Forall2 (fun a b => f a = Ok b) (firstn n (skipn a l)) (firstn n (skipn a r))).
  { revert a n. induction H as [|x y l r E H IH]; intros a n.
    - rewrite !skipn_nil, !firstn_nil. constructor.
    - destruct a as [|a]; cbn [skipn]; [|apply IH].
      destruct n as [|n]; cbn [firstn]; constructor; auto. apply (IH 0%nat n). }
  clear H. induction H2 as [|x y l' r' E H IH]; cbn; auto. rewrite E. cbn. rewrite IH. reflexivity.
Qed.

Lemma pool_arrive_ok {A B} (f : A -> res B) cs tasks rs order : forall value,
  (0 < cs)%nat -> mapM f tasks = Ok rs -> length value = length tasks ->
  (forall i, In i order -> (i * cs < length tasks)%nat) ->
  exists v, pool_arrive f cs tasks order value = Ok v /\ length v = length tasks /\
    forall j, (j < length tasks)%nat -> nth_error v j =
      if in_dec Nat.eq_dec (j / cs)%nat order then option_map Some (nth_error rs j) else nth_error value j.
Proof.
  intros value Hcs HM. assert (Lr : length rs = length tasks).
  { symmetry. eapply Forall2_length'. apply mapM_inv. exact HM. }
  revert value. induction order as [|i order IH]; intros value Lv HO; cbn [pool_arrive].
  - exists value. auto.
  - unfold chunk. rewrite (mapM_firstn_skipn f tasks rs (i * cs) cs HM). cbn [bind].
    set (c := firstn cs (skipn (i * cs) rs)).
    assert (Lc : length (map Some c) = Nat.min cs (length tasks - i * cs)).
    { unfold c. rewrite map_length, firstn_length, skipn_length. lia. }
    specialize (HO i (or_introl eq_refl)) as Hi.
    assert (Fit : (i * cs + length (map Some c) <= length value)%nat) by lia.
    destruct (IH (write_at value (i * cs) (map Some c))) as (v & E & L & N).
    { rewrite length_write_at; auto. }
    { intros k Hk. apply HO. right; auto. }
    exists v. split; auto. split; auto. intros j Hj. rewrite N by auto.
    rewrite nth_error_write_at by auto. rewrite Lc.
    destruct (in_dec Nat.eq_dec (j / cs)%nat order) as [I|I];
      destruct (in_dec Nat.eq_dec (j / cs)%nat (i :: order)) as [I'|I']; auto.
    + exfalso. apply I'. right; auto.
    + destruct I' as [E'|I']; [|contradiction].
      assert (Q := Nat.div_mod j cs ltac:(lia)). assert (Q2 := Nat.mod_upper_bound j cs ltac:(lia)).
      rewrite (Nat.mul_comm cs) in Q. rewrite <- E' in Q.
      replace (Nat.leb (i * cs)%nat j) with true by (symmetry; apply Nat.leb_le; lia).
      replace (Nat.ltb j _) with true by (symmetry; apply Nat.ltb_lt; lia). cbn [andb].
      rewrite nth_error_map. f_equal. unfold c. rewrite nth_error_firstn by lia.
      rewrite nth_error_skipn. f_equal. lia.
    + assert (Hne : (j / cs <> i)%nat) by (intros EE; apply I'; left; auto).
      destruct (Nat.leb_spec (i * cs) j) as [G1|G1]; cbn [andb]; auto.
      destruct (Nat.ltb_spec j (i * cs + Nat.min cs (length tasks - i * cs))) as [G2|G2]; auto.
      exfalso. apply Hne. symmetry. apply Nat.div_unique with (j - i * cs)%nat; lia.
Qed.

Lemma pool_starmap_ok {A B} (f : A -> res B) cs tasks rs order :
  (0 < cs)%nat -> mapM f tasks = Ok rs -> full_order (length tasks) cs order ->
  pool_starmap f cs tasks order = Ok (map Some rs).
Proof.
  intros Hcs HM [_ HO]. unfold pool_starmap.
  destruct (pool_arrive_ok f cs tasks rs order (repeat None (length tasks)) Hcs HM) as (v & E & L & N).
  { apply repeat_length. }
  { intros i Hi. apply HO; auto. }
  rewrite E. f_equal. assert (Lr : length rs = length tasks).
  { symmetry. eapply Forall2_length'. apply mapM_inv. exact HM. }
  apply nth_error_ext. intros j. rewrite nth_error_map.
  destruct (Nat.lt_ge_cases j (length tasks)) as [Hj|Hj].
  - rewrite N by auto. destruct (in_dec Nat.eq_dec (j / cs)%nat order) as [I|I]; auto.
    exfalso. apply I. apply HO. pose proof (Nat.mul_div_le j cs ltac:(lia)). lia.
  - rewrite !(proj2 (nth_error_None _ _)); auto; lia.
Qed.

(** an exception in any task reaches the caller *)
Lemma mapM_err_in {A B} (f : A -> res B) l a e : In a l -> f a = Err e -> exists e', mapM f l = Err e'.
Proof.
  induction l as [|x l IH]; [intros []|]; intros [->|H] E; cbn.
  - rewrite E. cbn. eauto.
  - destruct (f x); cbn; [|eauto]. destruct (IH H E) as [e' ->]. cbn. eauto.
Qed.
Lemma pool_arrive_err {A B} (f : A -> res B) cs tasks a e k order : forall value,
  In k order -> In a (chunk cs tasks k) -> f a = Err e ->
  exists e', pool_arrive f cs tasks order value = Err e'.
Proof.
  induction order as [|i order IH]; [intros value []|]; intros value [->|H] Ha E; cbn [pool_arrive].
  - destruct (mapM_err_in f _ a e Ha E) as [e' ->]. cbn. eauto.
  - destruct (mapM f (chunk cs tasks i)); cbn; [|eauto]. eapply IH; eauto.
Qed.
Lemma pool_starmap_err {A B} (f : A -> res B) cs tasks e0 order :
  (0 < cs)%nat -> mapM f tasks = Err e0 -> full_order (length tasks) cs order ->
  exists e, pool_starmap f cs tasks order = Err e.
Proof.
  intros Hcs HM [_ HO].
  assert (G : exists j a e, nth_error tasks j = Some a /\ f a = Err e).
  { clear HO. revert HM. induction tasks as [|x tasks IH]; cbn; [discriminate|].
    destruct (f x) as [y|e] eqn:E; [|intros _; exists 0%nat, x, e; auto]. cbn.
    destruct (mapM f tasks); cbn; [discriminate|]. intros H.
    destruct IH as (j & a & e' & H1 & H2); auto. exists (S j), a, e'. auto. }
  destruct G as (j & a & e & H1 & H2).
  assert (Hj : (j < length tasks)%nat) by (apply nth_error_Some; congruence).
  apply (pool_arrive_err f cs tasks a e (j / cs)%nat).
  - apply HO. pose proof (Nat.mul_div_le j cs ltac:(lia)). lia.
  - unfold chunk. apply nth_error_In with (j - j / cs * cs)%nat.
    assert (Q := Nat.div_mod j cs ltac:(lia)). assert (Q2 := Nat.mod_upper_bound j cs ltac:(lia)).
    rewrite (Nat.mul_comm cs) in Q.
    rewrite nth_error_firstn by lia. rewrite nth_error_skipn. rewrite <- H1. f_equal. lia.
  - exact H2.
Qed.

(** ** filter bank, final form *)
Lemma is_floor_zfloor k x : is_floor k x -> zfloor x = k.
Proof.
  intros [A B]. apply Z.le_antisymm.
  - apply Z.lt_succ_r. apply zfloor_lt_iff. rewrite succ_IZR. lra.
  - apply zfloor_le_iff. lra.
Qed.

Lemma np_round_is_round x : is_round (np_round x) x.
Proof.
  unfold is_round, np_round. pose proof (zfloor_spec x) as S. set (f := zfloor x) in *.
  destruct (Rltb (x - IZR f) (1 / 2)) eqn:E1; [apply Rltb_true in E1|apply Rltb_false in E1].
  - rewrite Rabs_minus_sym, Rabs_pos_eq by lra. split; lra.
  - destruct (Rltb (1 / 2) (x - IZR f)) eqn:E2; [apply Rltb_true in E2|apply Rltb_false in E2].
    + rewrite plus_IZR. rewrite Rabs_pos_eq by lra. split; lra.
    + assert (x - IZR f = 1 / 2) by lra. destruct (Z.even f) eqn:Ev.
      * rewrite Rabs_minus_sym, Rabs_pos_eq by lra. split; [lra|auto].
      * rewrite plus_IZR. rewrite Rabs_pos_eq by lra. split; [lra|]. intros _.
        rewrite Z.even_add, Ev. reflexivity.
Qed.

Lemma is_round_unique a b x : is_round a x -> is_round b x -> a = b.
Proof.
  intros [A1 A2] [B1 B2].
  assert (D : forall u v, Rabs (IZR u - x) <= 1 / 2 -> Rabs (IZR v - x) <= 1 / 2 -> (u < v)%Z ->
     (v = u + 1)%Z /\ Rabs (IZR u - x) = 1 / 2 /\ Rabs (IZR v - x) = 1 / 2).
  { intros u v Hu Hv L. assert (H : IZR u + 1 <= IZR v) by (rewrite <- plus_IZR; apply IZR_le; lia).
    assert (U : IZR u - x = - (1 / 2) /\ IZR v - x = 1 / 2).
    { unfold Rabs in *. destruct (Rcase_abs (IZR u - x)), (Rcase_abs (IZR v - x)); lra. }
    destruct U as [U1 U2]. split.
    - apply eq_IZR. rewrite plus_IZR. lra.
    - rewrite U1, U2, Rabs_Ropp, Rabs_pos_eq by lra. auto. }
  destruct (Z.lt_trichotomy a b) as [L|[E|L]]; auto; exfalso.
  - destruct (D a b A1 B1 L) as (E & Ea & Eb). specialize (A2 Ea). specialize (B2 Eb).
    rewrite E, Z.even_add, A2 in B2. discriminate.
  - destruct (D b a B1 A1 L) as (E & Eb & Ea). specialize (A2 Ea). specialize (B2 Eb).
    rewrite E, Z.even_add, B2 in A2. discriminate.
Qed.

Lemma nth_ext0 (l m : list R) : length l = length m ->
  (forall i, (i < length l)%nat -> nth i l 0 = nth i m 0) -> l = m.
Proof. intros H1 H2. apply (nth_ext l m 0 0); auto. Qed.

Lemma centres_value fuel n f_low fh fcs M : 0 < n -> 0 < f_low ->
  fo_centres fuel n f_low fh = Ok fcs -> band_count n f_low fh M ->
  fcs = map (centre n f_low) (seq 0 M).
Proof.
  intros Hn Hf E (M1 & M2 & M3). pose proof (centres_spec fuel n Hn f_low fh fcs E) as S.
  assert (L1 : (1 <= length fcs)%nat).
  { destruct (centres_first _ _ _ _ _ E) as [t ->]. cbn. lia. }
  assert (V : forall i, (i < length fcs)%nat -> nth i fcs 0 = centre n f_low i).
  { intros i Hi. destruct (S i Hi) as (A & _). rewrite A. unfold centre. ring. }
  assert (L : length fcs = M).
  { destruct (Nat.lt_trichotomy (length fcs) M) as [G|[G|G]]; auto; exfalso.
    - destruct (S (length fcs - 1)%nat ltac:(lia)) as (_ & _ & C). specialize (C ltac:(lia)).
      rewrite V in C by lia. specialize (M2 (length fcs - 1)%nat ltac:(lia)). unfold half_step in M2. lra.
    - destruct (S (M - 1)%nat ltac:(lia)) as (_ & C & _). specialize (C ltac:(lia)).
      rewrite V in C by lia. unfold half_step in M3. lra. }
  apply nth_ext0; [rewrite map_length, seq_length; auto|].
  intros i Hi. rewrite V by auto. rewrite nth_map_seq by lia. reflexivity.
Qed.

Lemma edge_pos N_out fs n f_low i :
  fo_pos ((IZR (Z.of_nat N_out) - 1) * 2) fs n (centre n f_low i) = edge N_out fs n f_low i.
Proof. unfold fo_pos, edge, fo_lo, half_step. rewrite <- INR_IZR_INZ. unfold Rdiv. ring. Qed.

Lemma half_step_pos n : 0 < half_step n.
Proof. apply exp_pos. Qed.
Lemma centre_pos n f i : 0 < f -> 0 < centre n f i.
Proof. intros. unfold centre. apply Rmult_lt_0_compat; auto. apply exp_pos. Qed.

Lemma edge_nonneg N_out fs n f_low i : (1 <= N_out)%nat -> 0 < fs -> 0 < f_low -> 0 <= edge N_out fs n f_low i.
Proof.
  intros HN Hfs Hf. unfold edge. pose proof (centre_pos n f_low i Hf). pose proof (half_step_pos n).
  assert (1 <= INR N_out) by (change 1 with (INR 1); apply le_INR; auto).
  apply Rmult_le_pos; [|left; apply Rinv_0_lt_compat; auto].
  apply Rmult_le_pos; [lra|]. left. apply Rdiv_lt_0_compat; auto.
Qed.

Lemma transitions_exist N_out fs n f_low overlap M : (1 <= N_out)%nat -> 0 < fs -> 0 < f_low -> 1 <= n ->
  0 <= overlap <= 1 / 2 ->
  exists k P, transitions N_out fs n f_low overlap M k P /\ forall i, (P i <= k i)%nat.
Proof.
  intros HN Hfs Hf Hn Ho.
  exists (fun i => Z.to_nat (zfloor (edge N_out fs n f_low i))),
         (fun i => Z.to_nat (np_round (overlap * (edge N_out fs n f_low i * (half_step n - 1))))).
  assert (B : forall i, (0 <= np_round (overlap * (edge N_out fs n f_low i * (half_step n - 1))) <=
                        zfloor (edge N_out fs n f_low i))%Z).
  { intros i. apply P_le_k; auto; [apply edge_nonneg; auto|apply Rpower_half_octave; auto]. }
  split.
  - intros i Hi. specialize (B i). rewrite !Z2Nat.id by lia. split.
    + unfold is_floor. apply zfloor_spec.
    + apply np_round_is_round.
  - intros i. specialize (B i). lia.
Qed.

Lemma transitions_kps N_out fs n f_low overlap M k P : fs <> 0 ->
  transitions N_out fs n f_low overlap M k P ->
  map (fun fc => (fo_k ((IZR (Z.of_nat N_out) - 1) * 2) fs n fc,
                  fo_P ((IZR (Z.of_nat N_out) - 1) * 2) fs n overlap fc)) (map (centre n f_low) (seq 0 M)) =
  map zpair (map (fun i => (k i, P i)) (seq 0 M)).
Proof.
  intros Hfs T. rewrite !map_map. apply map_ext_in. intros i Hi. apply in_seq in Hi.
  destruct (T i ltac:(lia)) as [F G]. unfold zpair. cbn [fst snd].
  rewrite fo_k_pos, fo_P_pos, edge_pos by auto. f_equal.
  - apply is_floor_zfloor; auto.
  - eapply is_round_unique; [apply np_round_is_round|]. exact G.
Qed.

Lemma chain_seq B k P : forall M s e, (forall i, (s <= i < s + M)%nat -> (P i <= k i)%nat) ->
  (0 < M -> e <= k s - P s)%nat ->
  (forall i, (s <= i)%nat -> (S i < s + M)%nat -> (k i + P i + P (S i) <= k (S i))%nat) ->
  (forall i, (s <= i < s + M)%nat -> (k i + P i < B)%nat) ->
  chain B e (map (fun i => (k i, P i)) (seq s M)).
Proof.
  induction M as [|M IH]; intros s e H1 H2 H3 H4; cbn [seq map chain]; auto.
  split; [apply H1; lia|]. split; [apply H2; lia|]. split; [specialize (H4 s ltac:(lia)); lia|].
  apply IH.
  - intros; apply H1; lia.
  - intros. specialize (H3 s ltac:(lia) ltac:(lia)). lia.
  - intros; apply H3; lia.
  - intros; apply H4; lia.
Qed.

Lemma transitions_P_le_k N_out fs n f_low overlap M k P :
  (1 <= N_out)%nat -> 0 < fs -> 0 < f_low -> 1 <= n -> 0 <= overlap <= 1 / 2 ->
  transitions N_out fs n f_low overlap M k P -> forall i, (i < M)%nat -> (P i <= k i)%nat.
Proof.
  intros HN Hfs Hf Hn Ho T i Hi.
  destruct (transitions_exist N_out fs n f_low overlap M HN Hfs Hf Hn Ho) as (k' & P' & T' & L).
  destruct (T i Hi) as [F G]. destruct (T' i Hi) as [F' G'].
  pose proof (is_round_unique _ _ _ G G').
  apply is_floor_zfloor in F. apply is_floor_zfloor in F'. specialize (L i). lia.
Qed.

(** the effective upper limit *)
Definition eff_high (fs : Z) (f_high : option R) : R :=
  match f_high with None => IZR (fs / 2) | Some f => Rmin f (IZR (fs / 2)) end.

Lemma filterbank_ok n N_out fs f_low f_high mode overlap slope M k P :
  1 <= n -> (1 <= N_out)%nat -> (0 < fs)%Z -> 0 < f_low -> 0 <= overlap <= 1 / 2 ->
  band_count n f_low (eff_high fs f_high) M ->
  transitions N_out (IZR fs) n f_low overlap M k P -> separated N_out M k P ->
  mode <> OtherMode ->
  exists fuel0 g ff, (forall fuel, (fuel0 <= fuel)%nat ->
    frac_octave_filterbank fuel n N_out fs f_low f_high mode overlap slope = Ok (g, ff)) /\
    length g = S M /\ (forall r, (r < S M)%nat -> length (nth r g []) = N_out) /\
    ff = fo_limits n (IZR fs) (map (centre n f_low) (seq 0 M)) /\
    forall j, (j < N_out)%nat ->
      (forall r, (r < S M)%nat -> 0 <= en g r j <= 1) /\
      match mode with
      | Energy => rsum (S M) (fun r => en g r j ^ 2) = 1
      | _ => rsum (S M) (fun r => en g r j) = 1
      end.
Proof.
  intros Hn HN Hfs Hf Ho HM HT [S1 S2] Hmode.
  assert (Hfs' : 0 < IZR fs) by (apply IZR_lt; auto).
  destruct (centres_terminate n f_low (eff_high fs f_high) ltac:(lra) Hf) as (fuel0 & F0).
  assert (HC : chain N_out 0 (map (fun i => (k i, P i)) (seq 0 M))).
  { apply chain_seq.
    - intros i Hi. apply (transitions_P_le_k N_out (IZR fs) n f_low overlap M k P); auto; lia.
    - intros. lia.
    - intros i _ Hi. apply S1. lia.
    - intros i Hi. apply S2. lia. }
  set (kps := map (fun i => (k i, P i)) (seq 0 M)) in *.
  assert (Lk : length kps = M) by (unfold kps; rewrite map_length, seq_length; auto).
  destruct (fo_bands_inv slope N_out kps (repeat (repeat 1 N_out) (M + 1)) 0 0) as (g & Eg & Lg & e & HI).
  { apply fo_init_inv. lia. } { exact HC. } { rewrite repeat_length. lia. }
  rewrite repeat_length in Lg. destruct HI as [HL HI]. rewrite Lk in HI. cbn [plus] in HI.
  set (g2 := match mode with Amplitude => map (map (fun x => x ^ 2)) g | _ => g end).
  exists fuel0, g2, (fo_limits n (IZR fs) (map (centre n f_low) (seq 0 M))).
  assert (EN : forall r j, (r < S M)%nat -> (j < N_out)%nat ->
     en g2 r j = match mode with Amplitude => en g r j ^ 2 | _ => en g r j end).
  { intros r j Hr Hj. unfold g2, en. destruct mode; auto.
    rewrite (nth_map_in _ g r [] []) by lia.
    rewrite (nth_map_in _ _ j 0 0) by (rewrite HL by lia; lia). reflexivity. }
  split; [|split; [|split; [|split]]].
  - intros fuel Hfu. destruct (F0 fuel Hfu) as [fcs Efc].
    pose proof (centres_value _ n f_low _ fcs M ltac:(lra) Hf Efc HM) as V.
    unfold frac_octave_filterbank. fold (eff_high fs f_high).
    replace (Rleb overlap (1 / 2)) with true by (symmetry; apply Rleb_true; lra).
    cbn [assert_ bind]. rewrite Efc. cbn [bind]. rewrite V.
    rewrite (transitions_kps N_out (IZR fs) n f_low overlap M k P ltac:(lra) HT).
    fold kps. rewrite map_length, seq_length. rewrite Eg. cbn [bind].
    unfold g2. destruct mode; [reflexivity|reflexivity|congruence].
  - unfold g2. destruct mode; rewrite ?map_length; lia.
  - intros r Hr. unfold g2. destruct mode; try (apply HL; lia).
    rewrite (nth_map_in _ g r [] []) by lia. rewrite map_length. apply HL. lia.
  - reflexivity.
  - intros j Hj. destruct (HI j Hj) as (_ & _ & SQ & RG). split.
    + intros r Hr. rewrite EN by auto. specialize (RG r ltac:(lia)). destruct mode; auto. nra.
    + destruct mode; [| |congruence].
      * rewrite <- SQ. apply rsum_ext. intros r Hr. rewrite EN by auto. reflexivity.
      * rewrite <- SQ. apply rsum_ext. intros r Hr. rewrite EN by auto. reflexivity.
Qed.

(** neighbouring transitions are separated once the first one spans enough bins *)
Lemma separated_suff N_out fs n f_low overlap M k P :
  1 <= n -> (1 <= N_out)%nat -> 0 < fs -> 0 < f_low -> 0 <= overlap <= 1 / 2 ->
  transitions N_out fs n f_low overlap M k P ->
  20 <= 9 * (edge N_out fs n f_low 0 * (half_step n - 1)) ->
  forall i, (S i < M)%nat -> (k i + P i + P (S i) <= k (S i))%nat.
Proof.
  intros Hn HN Hfs Hf Ho T H0 i Hi.
  destruct (T i ltac:(lia)) as [[F1 F2] [G1 _]]. destruct (T (S i) Hi) as [[F1' F2'] [G1' _]].
  set (c := half_step n) in *. destruct (Rpower_half_octave n Hn) as [C1 C2]. fold (half_step n) in C1, C2. fold c in C1, C2.
  set (x := edge N_out fs n f_low i) in *. set (x' := edge N_out fs n f_low (S i)) in *.
  assert (Ex : x' = x * (c * c)).
  { unfold x', x, edge, centre, c, half_step. rewrite S_INR.
    replace ((INR i + 1) / n) with (INR i / n + (1 / (2 * n) + 1 / (2 * n))) by (field; lra).
    rewrite !Rpower_plus. unfold Rdiv. ring. }
  assert (Gx : edge N_out fs n f_low 0 <= x).
  { unfold x, edge. apply Rmult_le_compat_r; [left; apply Rinv_0_lt_compat; auto|].
    assert (1 <= INR N_out) by (change 1 with (INR 1); apply le_INR; auto).
    apply Rmult_le_compat_l; [lra|]. apply Rmult_le_compat_r; [left; apply Rinv_0_lt_compat; apply half_step_pos|].
    unfold centre. apply Rmult_le_compat_l; [lra|]. apply Rle_Rpower; [lra|].
    unfold Rdiv. apply Rmult_le_compat_r; [left; apply Rinv_0_lt_compat; lra|]. cbn. apply pos_INR. }
  assert (Hx : 20 <= 9 * (x * (c - 1))) by nra.
  assert (X0 : 0 < x) by nra.
  apply Rabs_le_inv in G1, G1' || idtac.
  assert (W1 : overlap * (x * (c - 1)) <= x * (c - 1) / 2) by nra.
  assert (W2 : overlap * (x' * (c - 1)) <= x' * (c - 1) / 2).
  { assert (0 <= x' * (c - 1)) by (rewrite Ex; apply Rmult_le_pos; [apply Rmult_le_pos; nra|lra]). nra. }
  assert (B1 : IZR (Z.of_nat (P i)) <= overlap * (x * (c - 1)) + 1 / 2).
  { unfold Rabs in G1. destruct (Rcase_abs _) in G1; lra. }
  assert (B2 : IZR (Z.of_nat (P (S i))) <= overlap * (x' * (c - 1)) + 1 / 2).
  { unfold Rabs in G1'. destruct (Rcase_abs _) in G1'; lra. }
  (* x' - x - (w + w') >= 2, using c < sqrt 2 bound: 1/2 + c - c^2/2 >= 9/10 *)
  assert (Q : 9 / 10 <= 1 / 2 + c - c * c / 2).
  { assert (c * c < 9 / 4) by nra.
    assert (C3 : c * c <= 2).
    { unfold c, half_step. rewrite <- Rpower_plus.
      apply Rle_trans with (Rpower 2 1); [|rewrite Rpower_1; lra]. apply Rle_Rpower; [lra|].
      replace (1 / (2 * n) + 1 / (2 * n)) with (/ n) by (field; lra).
      rewrite <- Rinv_1. apply Rinv_le_contravar; lra. }
    nra. }
  assert (Z : IZR (Z.of_nat (k i)) + IZR (Z.of_nat (P i)) + IZR (Z.of_nat (P (S i))) < IZR (Z.of_nat (k (S i))) + 1).
  { assert (D : x' - x - x * (c - 1) / 2 - x' * (c - 1) / 2 = x * (c - 1) * (1 / 2 + c - c * c / 2)).
    { rewrite Ex. field. }
    assert (2 <= x * (c - 1) * (1 / 2 + c - c * c / 2)) by nra. lra. }
  rewrite <- !plus_IZR in Z. apply lt_IZR in Z. lia.
Qed.
