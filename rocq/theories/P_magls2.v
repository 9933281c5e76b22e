(** magls_bin: the loop over the bins, one ear. *)
From Verif Require Import Base BaseFacts M_utils M_sig M_process M_sph M_parsa2 M_parsa3 M_decoder4 S_grids S_lsq S_magls P_utils P_sig P_parsa3 P_sph6 P_proc2 P_proc5 P_lsq P_magls1.
Open Scope R_scope.

Definition target (H : list (list C2)) (delta : list R) (k : nat) (a : list C2) : list C2 :=
  map (fun q => cscal (cabs (fst q)) (cos (snd q), sin (snd q)))
      (combine (bin_of H k) (map (fun q => angle (fst q) + snd q) (combine a delta))).
Lemma length_target H delta k a : length H = length a -> length delta = length a -> length (target H delta k a) = length a.
Proof. intros A B. unfold target, bin_of. rewrite map_length, combine_length. rewrite (map_length _ H), (map_length _ (combine a delta)), combine_length. unfold C2 in *. lia. Qed.
Lemma nth_target H delta k a g : length H = length a -> length delta = length a -> (g < length a)%nat ->
  nth g (target H delta k a) (0, 0) = polar (modulus (nth k (nth g H []) (0, 0))) (arg (nth g a (0, 0)) + nth g delta 0).
Proof.
  intros A B Hg. unfold target.
  rewrite (nth_map_in _ _ g (0, 0) ((0, 0), 0)) by (unfold bin_of; rewrite combine_length, (map_length _ H), (map_length _ (combine a delta)), combine_length; unfold C2 in *; lia).
  rewrite combine_nth by (unfold bin_of; rewrite (map_length _ H), (map_length _ (combine a delta)), combine_length; unfold C2 in *; lia). cbn [fst snd].
  rewrite (nth_map_in _ _ g 0 ((0, 0), 0)) by (rewrite combine_length; unfold C2 in *; lia). rewrite combine_nth by (unfold C2 in *; lia). cbn [fst snd].
  unfold bin_of. rewrite (nth_map_in _ _ g (0, 0) []) by (unfold C2 in *; lia). reflexivity.
Qed.

Section LOOP.
  Variables (Y P : mat) (H : list (list C2)) (delta : list R) (bins : nat).
  Hypothesis PR : nr P = nc Y.
  Hypothesis PC : nc P = nr Y.
  Hypothesis LH : length H = nr Y.
  Hypothesis LD : length delta = nr Y.
  Definition next (k : nat) (prev : list C2) : list C2 := rmv P (target H delta k (rmv Y prev)).
  Definition wf (h : list (list C2)) : Prop := length h = bins /\ forall k, (k < bins)%nat -> length (nth k h []) = nc Y.
  Lemma step_ok h k prev t : wf h -> index h (Z.of_nat k - 1) = Ok prev -> length prev = nc Y ->
    magls_loop Y P H delta (k :: t) h = magls_loop Y P H delta t (upd h k (next k prev)).
  Proof.
    intros W I LP. cbn [magls_loop]. rewrite I. cbn [bind]. rewrite rmatvec_ok by exact LP. cbn [bind].
    fold (target H delta k (rmv Y prev)). rewrite rmatvec_ok by (rewrite length_target; rewrite length_rmv; lia). cbn [bind]. reflexivity.
  Qed.
  Lemma wf_upd h k prev : wf h -> wf (upd h k (next k prev)).
  Proof.
    intros (L & W). split; [rewrite length_upd; exact L|]. intros j Hj. rewrite nth_upd. destruct (Nat.eqb k j && Nat.ltb k (length h))%bool; [|apply W; exact Hj].
    unfold next. rewrite length_rmv. exact PR.
  Qed.
  Lemma loop_ok m : forall k0 h, (1 <= k0)%nat -> (k0 + m = bins)%nat -> wf h -> exists h', magls_loop Y P H delta (seq k0 m) h = Ok h' /\ wf h' /\
    (forall k, (k < k0)%nat -> nth k h' [] = nth k h []) /\
    (forall k, (k0 <= k)%nat -> (k < bins)%nat -> nth k h' [] = next k (nth (k - 1) h' [])).
  Proof.
    induction m as [|m IH]; intros k0 h K E W.
    - exists h. split; [reflexivity|]. split; [exact W|]. split; [reflexivity|]. intros; lia.
    - cbn [seq]. pose proof W as (L & WL).
      rewrite (step_ok h k0 (nth (k0 - 1) h [])); [|exact W| |apply WL; lia].
      2: { rewrite (index_ok h (Z.of_nat k0 - 1) []) by lia. destruct (Z.ltb_spec (Z.of_nat k0 - 1) 0); [lia|]. do 2 f_equal. lia. }
      destruct (IH (S k0) (upd h k0 (next k0 (nth (k0 - 1) h []))) ltac:(lia) ltac:(lia) (wf_upd _ _ _ W)) as (h' & E' & W' & A & B).
      exists h'. split; [exact E'|]. split; [exact W'|]. split.
      + intros k Hk. rewrite A by lia. apply nth_upd_other. lia.
      + intros k K1 K2. destruct (Nat.eq_dec k k0) as [->|NE]; [|apply B; lia].
        rewrite A by lia. rewrite nth_upd_same by lia. f_equal. rewrite A by lia. rewrite nth_upd_other by lia. reflexivity.
  Qed.
  (** from bin 0 the previous bin is the still empty last one *)
  Lemma loop_zero h : (1 <= bins)%nat -> wf h -> exists h', magls_loop Y P H delta (seq 0 bins) h = Ok h' /\ wf h' /\
    nth 0 h' [] = next 0 (nth (bins - 1) h []) /\
    (forall k, (1 <= k)%nat -> (k < bins)%nat -> nth k h' [] = next k (nth (k - 1) h' [])).
  Proof.
    intros B1 W. pose proof W as (L & WL). assert (ES : forall b, (1 <= b)%nat -> seq 0 b = 0%nat :: seq 1 (b - 1)) by (intros [|b] Hb; [lia|]; cbn [seq Nat.sub]; rewrite ?Nat.sub_0_r; reflexivity). rewrite (ES bins B1).
    rewrite (step_ok h 0 (nth (bins - 1) h [])); [|exact W| |apply WL; lia].
    2: { rewrite (index_ok h (Z.of_nat 0 - 1) []) by lia. destruct (Z.ltb_spec (Z.of_nat 0 - 1) 0); [|lia]. do 2 f_equal. lia. }
    destruct (loop_ok (bins - 1) 1 (upd h 0 (next 0 (nth (bins - 1) h []))) ltac:(lia) ltac:(lia) (wf_upd _ _ _ W)) as (h' & E' & W' & A & B).
    exists h'. split; [exact E'|]. split; [exact W'|]. split; [|exact B]. rewrite A by lia. apply nth_upd_same. lia.
  Qed.
End LOOP.

Lemma rmv_zero A n : nc A = n -> rmv A (repeat (0, 0) n) = repeat (0, 0) (nr A).
Proof.
  intros E. apply nth_ext with (d := (0, 0)) (d' := (0, 0)); [rewrite length_rmv, repeat_length; reflexivity|].
  intros i Hi. rewrite length_rmv in Hi. rewrite nth_rmv by exact Hi. rewrite nth_repeat.
  rewrite !rsum_0; [reflexivity| |]; intros j Hj; rewrite nth_repeat; cbn [fst snd]; ring.
Qed.
Lemma arg_zero : arg (0, 0) = 0.
Proof.
  unfold arg, arctan2. cbn [fst snd]. assert (E : Rltb 0 0 = false) by (destruct (Rltb 0 0) eqn:E; [apply Rltb_true in E; lra|reflexivity]).
  rewrite E. reflexivity.
Qed.
Lemma mean_increment_ext kc p p' d : (forall k, (k < kc)%nat -> p k = p' k) -> (1 <= kc)%nat -> mean_increment kc p d -> mean_increment kc p' d.
Proof.
  intros E K (u & (A & B & C) & D). exists u. split; [|exact D]. split; [rewrite A; apply E; lia|]. split; [|exact C].
  intros k Hk. destruct (B k Hk) as (m & Em). exists m. rewrite Em, (E k Hk). reflexivity.
Qed.
Lemma nth_map_seq' {A} (f : nat -> A) n i d : (i < n)%nat -> nth i (map f (seq 0 n)) d = f i.
Proof. intros Hi. rewrite (nth_map_in _ _ i d 0%nat) by (rewrite seq_length; exact Hi). rewrite seq_nth by exact Hi. reflexivity. Qed.


Section EAR.
  Variables (Y P : mat) (H : list (list C2)) (bins kc : nat) (hf : R).
  Hypothesis HP : penrose Y P.
  Hypothesis LH : length H = nr Y.
  Hypothesis B1 : (1 <= bins)%nat.
  Hypothesis KB : (kc <= bins)%nat.
  Let lin := map (fun k => rmv P (bin_of H k)) (seq 0 kc).
  Let zeros : list (list C2) := repeat (repeat (0, 0) (nc Y)) (bins - kc).
  Definition coef (h : list (list C2)) (k j : nat) : C2 := nth j (nth k h []) (0, 0).
  Lemma dims : nr P = nc Y /\ nc P = nr Y.
  Proof. destruct HP as (A & B & _). split; [exact A|exact B]. Qed.
  Lemma length_bin k : length (bin_of H k) = nr Y.
  Proof. unfold bin_of. rewrite map_length. exact LH. Qed.
  Lemma lin_ok : mapM (fun k => rmatvec P (bin_of H k)) (seq 0 kc) = Ok lin.
  Proof. apply mapM_ok_map. intros k _. apply rmatvec_ok. rewrite length_bin. symmetry. apply dims. Qed.
  Lemma length_lin : length lin = kc.
  Proof. unfold lin. rewrite map_length, seq_length. reflexivity. Qed.
  Lemma nth_lin k : (k < kc)%nat -> nth k lin [] = rmv P (bin_of H k).
  Proof. intros Hk. unfold lin. rewrite nth_map_seq' by exact Hk. reflexivity. Qed.
  Lemma app_ok : mapM (rmatvec Y) lin = Ok (map (rmv Y) lin).
  Proof.
    apply mapM_ok_map. intros c Hc. apply rmatvec_ok. unfold lin in Hc. apply in_map_iff in Hc. destruct Hc as (k & <- & _). rewrite length_rmv. apply dims.
  Qed.
  Lemma wf_start : wf Y bins (lin ++ zeros).
  Proof.
    pose proof length_lin as LL. split; [unfold zeros; rewrite app_length, repeat_length, LL; lia|]. intros k Hk. destruct (Nat.lt_ge_cases k kc) as [C|C].
    - rewrite app_nth1 by lia. rewrite nth_lin by exact C. rewrite length_rmv. apply dims.
    - rewrite app_nth2 by lia. unfold zeros. rewrite (nth_indep _ [] (repeat (0, 0) (nc Y))) by (rewrite repeat_length; lia). rewrite nth_repeat, repeat_length. reflexivity.
  Qed.
  Lemma next_fit delta k prev : length delta = nr Y -> length prev = nc Y ->
    cfit Y (fun g => polar (modulus (nth k (nth g H []) (0, 0))) (arg (decoded Y (fun j => nth j prev (0, 0)) g) + nth g delta 0))
           (fun j => nth j (next Y P H delta k prev) (0, 0)).
  Proof.
    intros LD LP. unfold next. eapply cfit_ext; [| |apply (cfit_pinv Y P (target H delta k (rmv Y prev)) HP)].
    - intros g Hg. cbn beta. rewrite nth_target by (rewrite length_rmv; lia). rewrite nth_decoded by exact Hg. reflexivity.
    - reflexivity.
    - rewrite length_target; rewrite length_rmv; lia.
  Qed.
  Lemma lin_fit k : (k < kc)%nat -> cfit Y (fun g => nth k (nth g H []) (0, 0)) (fun j => nth j (nth k lin []) (0, 0)).
  Proof.
    intros Hk. rewrite nth_lin by exact Hk. eapply cfit_ext; [| |apply (cfit_pinv Y P (bin_of H k) HP (length_bin k))]; [|reflexivity].
    intros g Hg. cbn beta. unfold bin_of. rewrite (nth_map_in _ _ g (0, 0) []) by (unfold C2 in *; lia). reflexivity.
  Qed.
  (** the loop on any phase increments *)
  Lemma ear_loop deltas : length deltas = nr Y -> exists h, magls_loop Y P H (map (fun d => d - hf) deltas) (seq kc (bins - kc)) (lin ++ zeros) = Ok h /\
    wf Y bins h /\ (forall k, (k < kc)%nat -> nth k h [] = nth k lin []) /\
    forall k, (kc <= k)%nat -> (k < bins)%nat ->
      cfit Y (fun g => polar (modulus (nth k (nth g H []) (0, 0)))
                (arg (match k with O => (0, 0) | S k' => decoded Y (coef h k') g end) + (nth g deltas 0 - hf))) (coef h k).
  Proof.
    intros LD. set (dl := map (fun d => d - hf) deltas).
    assert (LDL : length dl = nr Y) by (unfold dl; rewrite map_length; exact LD).
    assert (ND : forall g, (g < nr Y)%nat -> nth g dl 0 = nth g deltas 0 - hf) by (intros g Hg; unfold dl; rewrite (nth_map_in _ _ g 0 0) by lia; reflexivity).
    assert (STEP : forall h k prev, length prev = nc Y -> nth k h [] = next Y P H dl k prev ->
      cfit Y (fun g => polar (modulus (nth k (nth g H []) (0, 0))) (arg (decoded Y (fun j => nth j prev (0, 0)) g) + (nth g deltas 0 - hf))) (coef h k)).
    { intros h k prev LP E. eapply cfit_ext; [| |apply (next_fit dl k prev LDL LP)].
      - intros g Hg. cbn beta. rewrite ND by exact Hg. reflexivity.
      - intros j Hj. unfold coef. rewrite E. reflexivity. }
    destruct (Nat.eq_dec kc 0) as [K0|K0].
    - assert (ZS : lin ++ zeros = repeat (repeat (0, 0) (nc Y)) bins) by (unfold lin, zeros; rewrite K0, Nat.sub_0_r; reflexivity).
      destruct (loop_zero Y P H dl bins (proj1 dims) (proj2 dims) LH LDL (lin ++ zeros) B1 wf_start) as (h & E & W & N0 & NK).
      exists h. rewrite K0, Nat.sub_0_r. split; [exact E|]. split; [exact W|]. split; [intros; lia|]. intros [|k] _ Hk.
      + assert (NZ : nth (bins - 1) (lin ++ zeros) [] = repeat (0, 0) (nc Y)).
        { rewrite ZS. rewrite (nth_indep _ [] (repeat (0, 0) (nc Y))) by (rewrite repeat_length; lia). apply nth_repeat. }
        rewrite NZ in N0.
        eapply cfit_ext; [| |exact (STEP h 0%nat (repeat (0, 0) (nc Y)) (repeat_length _ _) N0)]; [|reflexivity].
        intros g Hg. cbn beta. rewrite <- nth_decoded, rmv_zero, nth_repeat by auto. reflexivity.
      + specialize (NK (S k) ltac:(lia) Hk). rewrite Nat.sub_succ, Nat.sub_0_r in NK.
        exact (STEP h (S k) (nth k h []) (proj2 W k ltac:(lia)) NK).
    - destruct (loop_ok Y P H dl bins (proj1 dims) (proj2 dims) LH LDL (bins - kc) kc (lin ++ zeros) ltac:(lia) ltac:(lia) wf_start) as (h & E & W & NL & NK).
      exists h. split; [exact E|]. split; [exact W|]. split; [intros k Hk; rewrite NL by exact Hk; apply app_nth1; rewrite length_lin; exact Hk|].
      intros [|k] Hk Hb; [lia|]. specialize (NK (S k) Hk Hb). rewrite Nat.sub_succ, Nat.sub_0_r in NK.
      exact (STEP h (S k) (nth k h []) (proj2 W k ltac:(lia)) NK).
  Qed.
  Lemma ear_ok cont : cont_ok cont kc -> exists h, magls_ear Y P H bins kc cont hf = Ok h /\ wf Y bins h /\
    magls_spectrum Y (fun g k => nth k (nth g H []) (0, 0)) kc bins cont hf (coef h).
  Proof.
    intros CO. unfold magls_ear. rewrite lin_ok. cbn [bind]. rewrite app_ok. cbn [bind]. fold zeros.
    assert (FIN : forall deltas, length deltas = nr Y ->
      (forall c, (forall k j, (k < kc)%nat -> c k j = coef lin k j) -> phase_step cont Y c kc (fun g => nth g deltas 0)) ->
      exists h, magls_loop Y P H (map (fun d => d - hf) deltas) (seq kc (bins - kc)) (lin ++ zeros) = Ok h /\ wf Y bins h /\
        magls_spectrum Y (fun g k => nth k (nth g H []) (0, 0)) kc bins cont hf (coef h)).
    { intros deltas LD PS. destruct (ear_loop deltas LD) as (h & E & W & NL & NK). exists h. split; [exact E|]. split; [exact W|].
      exists (fun g => nth g deltas 0). split.
      - apply PS. intros k j Hk. unfold coef. rewrite NL by exact Hk. reflexivity.
      - intros k Hk. split; [|intros K; apply NK; assumption]. intros K. unfold coef. rewrite NL by exact K. apply lin_fit. exact K. }
    destruct cont; cbn [cont_ok] in CO.
    - rewrite (proj2 (Nat.ltb_lt 5 kc) CO). cbn [assert_ bind]. apply FIN; [apply repeat_length|]. intros c Hc. split; [exact CO|].
      eexists. split; [|intros g Hg; rewrite (nth_indep _ 0 (slope kc (map (fun c0 => angle (nth 0 c0 (0, 0))) lin))) by (rewrite repeat_length; exact Hg); apply nth_repeat].
      eapply mean_increment_ext; [|lia|apply slope_ok; [exact CO|rewrite map_length; pose proof length_lin as LL; unfold C2 in *; lia]].
      intros k Hk. cbn beta. rewrite (nth_map_in _ _ k 0 []) by (pose proof length_lin as LL; unfold C2 in *; lia). rewrite Hc by exact Hk. reflexivity.
    - rewrite (proj2 (Nat.ltb_lt 5 kc) CO). cbn [assert_ bind]. apply FIN; [rewrite map_length, seq_length; reflexivity|]. intros c Hc. split; [exact CO|].
      intros g Hg. rewrite nth_map_seq' by exact Hg.
      eapply mean_increment_ext; [|lia|apply slope_ok; [exact CO|rewrite app_length, !map_length; pose proof length_lin as LL; unfold C2 in *; lia]].
      intros k Hk. cbn beta. rewrite app_nth1 by (rewrite !map_length; pose proof length_lin as LL; unfold C2 in *; lia).
      rewrite (nth_map_in _ _ k 0 []) by (rewrite map_length; pose proof length_lin as LL; unfold C2 in *; lia). rewrite (nth_map_in _ _ k [] []) by (pose proof length_lin as LL; unfold C2 in *; lia).
      rewrite nth_decoded by exact Hg. unfold arg, angle, decoded. cbn [fst snd].
      assert (EE : forall j, nth j (nth k lin []) (0, 0) = c k j) by (intros j; rewrite Hc by exact Hk; reflexivity).
      f_equal; apply rsum_ext; intros j Hj; rewrite EE; reflexivity.
    - apply FIN; [apply repeat_length|]. intros c Hc g Hg. apply nth_repeat.
    - contradiction.
  Qed.
  Lemma ear_assert cont : (kc <= 5)%nat -> cont = Avg \/ cont = Angle -> magls_ear Y P H bins kc cont hf = Err AssertionError.
  Proof.
    intros K C. unfold magls_ear. rewrite lin_ok. cbn [bind]. rewrite app_ok. cbn [bind]. rewrite (proj2 (Nat.ltb_ge 5 kc) K). destruct C as [->| ->]; reflexivity.
  Qed.
  Lemma ear_other : magls_ear Y P H bins kc OtherCont hf = Err ValueError.
  Proof. unfold magls_ear. rewrite lin_ok. cbn [bind]. rewrite app_ok. reflexivity. Qed.
End EAR.
