(** The dummy HRIRs: one pulse per ear. *)
From Verif Require Import Base BaseFacts M_utils M_sig M_process M_sph0 M_sph M_grids M_decoder M_decoder2 M_io S_io P_sig P_grids2.
Open Scope R_scope.

Lemma dummy_left q : dummy_a (-1) q = ear 1 (fst q) (snd q).
Proof. unfold dummy_a, ear. replace (fst q + -1 * (PI / 2)) with (- (PI / 2 - fst q)) by lra. rewrite cos_neg, cos_shift. field. Qed.
Lemma dummy_right q : dummy_a 1 q = ear (-1) (fst q) (snd q).
Proof. unfold dummy_a, ear. replace (fst q + 1 * (PI / 2)) with (PI / 2 - (- fst q)) by lra. rewrite cos_shift, sin_neg. field. Qed.
Lemma ear_range side azi zen : side = 1 \/ side = -1 -> 0 <= zen <= PI -> 0 <= ear side azi zen <= 1.
Proof.
  intros S Z0. unfold ear. pose proof (SIN_bound azi) as B. pose proof (SIN_bound zen) as B'. assert (P : 0 <= sin zen) by (apply sin_ge_0; lra).
  assert (U : 0 <= (1 + side * sin azi) / 2 <= 1) by (destruct S; subst side; lra). set (u := (1 + side * sin azi) / 2) in *. clearbody u. nra.
Qed.

(** writing one tap per row *)
Lemma set_taps_ok n a idx v : Forall (fun r => length r = n) a -> length idx = length a -> length v = length a ->
  Forall (fun i => (0 <= i < Z.of_nat n)%Z) idx ->
  set_taps a idx v = Ok (map (fun q => upd (fst q) (Z.to_nat (fst (snd q))) (snd (snd q))) (combine a (combine idx v))).
Proof.
  unfold set_taps. intro F. revert idx v. induction F as [|r a L F IH]; intros idx v LI LV FI; [reflexivity|].
  destruct idx as [|i idx]; [discriminate|]. destruct v as [|x v]; [discriminate|]. cbn [combine map mapM]. inversion FI as [|? ? I FI']. subst.
  assert (E1 : (i <? 0)%Z = false) by (apply Z.ltb_ge; lia). rewrite E1.
  assert (E2 : ((0 <=? i) && (i <? Z.of_nat (length r)))%Z%bool = true) by (apply andb_true_intro; split; [apply Z.leb_le|apply Z.ltb_lt]; lia).
  rewrite E2. cbn [bind]. rewrite (IH idx v) by (cbn in *; lia || assumption). reflexivity.
Qed.
Lemma set_taps_err n a idx v g : Forall (fun r => length r = n) a -> length idx = length a -> length v = length a ->
  (g < length idx)%nat -> (Z.of_nat n <= nth g idx 0)%Z -> Forall (fun i => (0 <= i)%Z) idx -> set_taps a idx v = Err IndexError.
Proof.
  unfold set_taps. intro F. revert idx v g. induction F as [|r a L F IH]; intros idx v g LI LV G B P.
  - cbn in LI. lia.
  - destruct idx as [|i idx]; [discriminate|]. destruct v as [|x v]; [discriminate|]. cbn [combine mapM]. inversion P as [|? ? I P']. subst.
    assert (E1 : (i <? 0)%Z = false) by (apply Z.ltb_ge; lia). rewrite E1. destruct (Z.ltb_spec i (Z.of_nat (length r))) as [H|H].
    + assert (E2 : (0 <=? i)%Z = true) by (apply Z.leb_le; lia). rewrite E2. cbn [andb bind]. destruct g as [|g]; [cbn in B; lia|].
      rewrite (IH idx v g) by (cbn in *; lia || assumption). reflexivity.
    + rewrite Bool.andb_false_r. reflexivity.
Qed.

Lemma nth_combine_in {A B} (l : list A) (m : list B) g a b : length l = length m -> nth g (combine l m) (a, b) = (nth g l a, nth g m b).
Proof. intro L. apply combine_nth. exact L. Qed.
Lemma dummy_tap_bounds fs a : 0 <= a -> (0 <= fs)%Z -> (10 <= dummy_tap fs a)%Z /\ IZR (dummy_tap fs a) <= a * (75 / 100000) * IZR fs + 10 < IZR (dummy_tap fs a) + 1.
Proof.
  intros A F. assert (F' : 0 <= IZR fs) by (apply (IZR_le 0); exact F). unfold dummy_tap. replace (75 / 100 / 1000) with (75 / 100000) by field.
  set (x := a * (75 / 100000) * IZR fs + 10). assert (X : 10 <= x) by (unfold x; assert (0 <= a * (75 / 100000) * IZR fs) by (apply Rmult_le_pos; [apply Rmult_le_pos; lra|exact F']); lra).
  clearbody x. destruct (py_int_nonneg x ltac:(lra)) as [_ B]. split; [|exact B].
  apply Z.lt_succ_r, lt_IZR. rewrite succ_IZR. lra.
Qed.
Lemma small_tap a : 0 <= a <= 1 -> (0 <= py_int (a * 5) <= 5)%Z.
Proof.
  intro A. destruct (py_int_nonneg (a * 5) ltac:(lra)) as [P B]. split; [exact P|]. apply Z.lt_succ_r, lt_IZR. rewrite succ_IZR. lra.
Qed.

(** one ear *)
Lemma dummy_ear_ok fs near far : length far = length near -> (forall a, In a near -> 0 <= a <= 1) -> (forall a, In a far -> 0 <= a) -> (0 <= fs)%Z ->
  (forall a, In a far -> a * (75 / 100000) * IZR fs + 10 < 256) ->
  exists h, dummy_ear fs near far = Ok h /\ length h = length near /\
    forall g, (g < length near)%nat -> exists t, delay_tap fs (nth g far 0) t /\ one_pulse 256 (nth g h []) t (nth g near 0 + 1 / 10).
Proof.
  intros L N F P B. unfold dummy_ear. set (n := 256%nat) in *. set (z := repeat (repeat 0 n) (length near)).
  assert (TB : forall a, In a far -> (10 <= dummy_tap fs a < Z.of_nat n)%Z).
  { intros a Ha. destruct (dummy_tap_bounds fs a (F a Ha) P) as [T1 T2]. split; [exact T1|]. apply lt_IZR. apply Rle_lt_trans with (1 := proj1 T2). exact (B a Ha). }
  rewrite (set_taps_ok n z).
  2:{ unfold z. apply Forall_forall. intros r Hr. apply repeat_spec in Hr. subst r. apply repeat_length. }
  2:{ unfold z. rewrite map_length, repeat_length. exact L. }
  2:{ unfold z. rewrite map_length, repeat_length. exact L. }
  2:{ apply Forall_forall. intros i Hi. apply in_map_iff in Hi. destruct Hi as (a & <- & Ha). pose proof (TB a Ha). lia. }
  cbn [bind]. set (h1 := map _ (combine z _)). set (h2 := map _ (combine h1 near)).
  assert (Lz : length z = length near) by (unfold z; apply repeat_length).
  assert (L1 : length h1 = length near). { unfold h1. rewrite map_length, !combine_length, !map_length. lia. }
  assert (L2 : length h2 = length near) by (unfold h2; rewrite map_length, combine_length; lia).
  assert (N1 : forall g, (g < length near)%nat -> nth g h1 [] = upd (repeat 0 n) (Z.to_nat (dummy_tap fs (nth g far 0))) 1).
  { intros g Hg. unfold h1. rewrite (nth_map_in _ _ g [] ([], (0%Z, 0))) by (rewrite !combine_length, !map_length; lia).
    rewrite nth_combine_in by (rewrite combine_length, !map_length; lia). rewrite nth_combine_in by (rewrite !map_length; lia). cbn [fst snd].
    rewrite (nth_map_in _ _ g 0%Z 0) by lia. rewrite (nth_map_in _ _ g 0 0) by lia. unfold z. rewrite nth_repeat_in by exact Hg. reflexivity. }
  assert (N2 : forall g, (g < length near)%nat -> nth g h2 [] = map (fun v => v * (nth g near 0 + 1 / 10)) (nth g h1 [])).
  { intros g Hg. unfold h2. rewrite (nth_map_in _ _ g [] ([], 0)) by (rewrite combine_length; lia). rewrite nth_combine_in by lia. reflexivity. }
  assert (E2 : forall g, (g < length near)%nat -> length (nth g h2 []) = n).
  { intros g Hg. rewrite (N2 g Hg), map_length, (N1 g Hg), length_upd. apply repeat_length. }
  rewrite (set_taps_ok n h2).
  2:{ apply Forall_forall. intros r Hr. destruct (In_nth _ _ [] Hr) as (g & Hg & <-). apply E2. lia. }
  2:{ rewrite map_length. lia. }
  2:{ rewrite map_length. reflexivity. }
  2:{ apply Forall_forall. intros i Hi. apply in_map_iff in Hi. destruct Hi as (a & <- & Ha). pose proof (small_tap a (N a Ha)). unfold n. lia. }
  eexists. split; [reflexivity|]. split; [rewrite map_length, !combine_length, !map_length; lia|].
  intros g Hg. assert (Hf : In (nth g far 0) far) by (apply nth_In; lia). assert (Hn : In (nth g near 0) near) by (apply nth_In; lia).
  destruct (dummy_tap_bounds fs (nth g far 0) (F _ Hf) P) as [T1 T2]. pose proof (TB _ Hf) as T3. pose proof (small_tap _ (N _ Hn)) as T4.
  set (t := dummy_tap fs (nth g far 0)) in *. exists (Z.to_nat t). split.
  { unfold delay_tap. rewrite INR_IZR_INZ, Z2Nat.id by lia. lra. }
  rewrite (nth_map_in _ _ g [] ([], (0%Z, 0))) by (rewrite !combine_length, !map_length; lia).
  rewrite nth_combine_in by (rewrite combine_length, !map_length; lia). rewrite nth_combine_in by (rewrite !map_length; lia). cbn [fst snd].
  rewrite (nth_map_in _ _ g 0%Z 0) by lia. rewrite (nth_map_in _ _ g 0 []) by lia.
  set (u := Z.to_nat (py_int (nth g near 0 * 5))).
  assert (V : forall i, (i < n)%nat -> nth i (nth g h2 []) 0 = if Nat.eqb i (Z.to_nat t) then nth g near 0 + 1 / 10 else 0).
  { intros i Hi. rewrite (N2 g Hg), (N1 g Hg). rewrite (nth_map_in _ _ i 0 0) by (rewrite length_upd, repeat_length; exact Hi).
    destruct (Nat.eqb_spec i (Z.to_nat t)) as [->|D].
    - rewrite nth_upd_same by (rewrite repeat_length; exact Hi). ring.
    - rewrite nth_upd_other by auto. rewrite nth_repeat_in by exact Hi. ring. }
  assert (UT : u <> Z.to_nat t) by (unfold u; lia). assert (UN : (u < n)%nat) by (unfold u, n; lia).
  assert (Z0 : nth 0 (nth g h2 []) 0 = 0). { rewrite V by (unfold n; lia). destruct (Nat.eqb_spec 0 (Z.to_nat t)); [lia|reflexivity]. }
  rewrite Z0. split; [rewrite length_upd; apply E2; exact Hg|]. split; [lia|]. split.
  - rewrite nth_upd_other by auto. rewrite V by lia. rewrite Nat.eqb_refl. reflexivity.
  - intros i Hi D. destruct (Nat.eq_dec i u) as [->|D'].
    + apply nth_upd_same. rewrite E2 by exact Hg. exact UN.
    + rewrite nth_upd_other by auto. rewrite V by exact Hi. destruct (Nat.eqb_spec i (Z.to_nat t)); [contradiction|reflexivity].
Qed.
Lemma dummy_ear_err fs near far a : length far = length near -> (forall a, In a far -> 0 <= a) -> (0 <= fs)%Z ->
  In a far -> 256 <= a * (75 / 100000) * IZR fs + 10 -> dummy_ear fs near far = Err IndexError.
Proof.
  intros L F P I B. unfold dummy_ear. destruct (In_nth _ _ 0 I) as (g & Hg & Eg).
  assert (X : set_taps (repeat (repeat 0 256) (length near)) (map (dummy_tap fs) far) (map (fun _ => 1) far) = Err IndexError); [|rewrite X; reflexivity].
  apply (set_taps_err 256 _ _ _ g).
  - apply Forall_forall. intros r Hr. apply repeat_spec in Hr. subst r. apply repeat_length.
  - rewrite map_length, repeat_length. exact L.
  - rewrite map_length, repeat_length. exact L.
  - rewrite map_length. exact Hg.
  - rewrite (nth_map_in _ _ g 0%Z 0) by exact Hg. rewrite Eg. destruct (dummy_tap_bounds fs a (F a I) P) as [_ T].
    apply Z.lt_succ_r, lt_IZR. rewrite succ_IZR. change (IZR (Z.of_nat 256)) with 256. lra.
  - apply Forall_forall. intros i Hi. apply in_map_iff in Hi. destruct Hi as (b & <- & Hb). destruct (dummy_tap_bounds fs b (F b Hb) P) as [T _]. lia.
Qed.
