(** Post equalization: one block, the loop over the blocks, one band. *)
From Verif Require Import Base BaseFacts M_utils M_sig M_process M_decoder M_decoder3 M_parsa2 M_parsa3
  S_decoder3 S_parsa2 S_parsa3 P_sig P_dec13 P_parsa7 P_parsa8 P_parsa9.
Open Scope R_scope.

Lemma at_least_max x : Rmax x (10 / 10 ^ 10) = at_least (1 / 10 ^ 9) x.
Proof.
  assert (10 / 10 ^ 10 = 1 / 10 ^ 9) as E by (cbn; lra). rewrite E. unfold at_least. destruct (Rle_dec x (1 / 10 ^ 9)) as [A|A].
  - apply Rmax_right. exact A.
  - apply Rmax_left. lra.
Qed.
Lemma mixed_reference b c i : mixed b c i = reference b c i.
Proof.
  unfold mixed, reference. rewrite !at_least_max. destruct b as [|[|[|b]]]; cbn [share]; lra.
Qed.
Lemma clip_limited (soft : bool) (mag : list R) k :
  (k < length mag)%nat -> nth k (if soft then gain_clipping mag 1 else mag) 0 = limited soft (nth k mag 0).
Proof.
  intros K. unfold limited. destruct soft; [|reflexivity]. unfold gain_clipping. rewrite (nth_map_in _ _ _ _ 0) by exact K.
  unfold clip1. rewrite Rmult_1_r. unfold Rdiv. rewrite Rinv_1, Rmult_1_r.
  destruct (Rle_dec (nth k mag 0) 1) as [A|A].
  - rewrite (proj2 (Rltb_false 1 (nth k mag 0))) by exact A. reflexivity.
  - rewrite (proj2 (Rltb_true 1 (nth k mag 0))) by lra. reflexivity.
Qed.
Lemma nth_combine {A B} (l : list A) (m : list B) a b k : length l = length m ->
  nth k (combine l m) (a, b) = (nth k l a, nth k m b).
Proof. intros H. apply combine_nth. exact H. Qed.
Lemma lsum_map_nth {A} (d : A) (l : list A) (f : A -> R) : lsum (map f l) = rsum (length l) (fun i => f (nth i l d)).
Proof.
  rewrite lsum_nth, map_length. apply rsum_ext. intros i I. apply nth_map_in. exact I.
Qed.

Lemma blocks_bound h pad S : let bs := (2 * h)%nat in (1 <= h)%nat -> (bs <= S + 2 * pad)%nat ->
  (S + 2 * pad < bs + blocks bs pad S * h)%nat /\ forall i, (i < blocks bs pad S)%nat -> (i * h + bs <= S + 2 * pad)%nat.
Proof.
  intros bs H B. unfold blocks. replace (bs / 2)%nat with h by (unfold bs; rewrite Nat.mul_comm, Nat.div_mul; lia).
  pose proof (Nat.div_mod (S + 2 * pad - bs) h ltac:(lia)) as E. pose proof (Nat.mod_upper_bound (S + 2 * pad - bs) h ltac:(lia)) as M.
  set (d := ((S + 2 * pad - bs) / h)%nat) in *. split; [nia|]. intros i I. assert (i * h <= d * h)%nat by (apply Nat.mul_le_mono_r; lia). lia.
Qed.
(** * One block *)
Section Block.
Variables (h pad S : nat) (p : list R) (rws : list (list R)) (att : list R).
Hypothesis Hh : (1 <= h)%nat.
Hypothesis Hp : length p = S.
Hypothesis Hr : forall l, (l < length rws)%nat -> length (nth l rws []) = S.
Hypothesis Ha : length att = length rws.
Hypothesis Hn : forall l, 0 <= nth l att 0.
Let bs := (2 * h)%nat.
Let x (l : nat) := nth l rws [].
Let at_ (l : nat) := nth l att 0.

Definition the_block (start : nat) (r : list R) : list R :=
  match block_of bs (padded pad r) start with Ok b => b | Err _ => [] end.
Lemma blocks_ok start : (start + bs <= S + 2 * pad)%nat ->
  mapM (fun y => block_of bs y start) (map (padded pad) rws) = Ok (map (the_block start) rws) /\
  (forall l, (l < length rws)%nat -> length (the_block start (x l)) = bs /\
     forall j, (j < bs)%nat -> nth j (the_block start (x l)) 0 = block bs (x l) (Z.of_nat start - Z.of_nat pad) j).
Proof.
  intros B. assert (forall l, (l < length rws)%nat -> exists b, block_of bs (padded pad (x l)) start = Ok b /\ length b = bs /\
    forall j, (j < bs)%nat -> nth j b 0 = block bs (x l) (Z.of_nat start - Z.of_nat pad) j) as G.
  { intros l L. apply block_ok; [exact Hh|]. unfold x. rewrite Hr by exact L. exact B. }
  split.
  - rewrite (mapM_ok _ (fun y => match block_of bs y start with Ok b => b | Err _ => [] end)).
    + rewrite map_map. reflexivity.
    + intros y I. apply in_map_iff in I. destruct I as (r & <- & I). destruct (In_nth _ _ [] I) as (l & L & <-).
      destruct (G l L) as (b & E & _). fold (x l). rewrite E. reflexivity.
  - intros l L. destruct (G l L) as (b & E & A1 & A2). unfold the_block. rewrite E. auto.
Qed.

Lemma equalized_ok b soft start : (start + bs <= S + 2 * pad)%nat ->
  exists X, equalized_block b soft att bs (padded pad p) (map (padded pad) rws) start = Ok X /\ length X = length rws /\
    forall l, (l < length rws)%nat -> length (nth l X []) = (2 * bs - 1)%nat /\
      forall t, (t < 2 * bs - 1)%nat -> nth t (nth l X []) 0 =
        zero_phase (2 * bs - 1) bs (eq_gain b soft bs (length rws) at_ p x (Z.of_nat start - Z.of_nat pad))
          (block bs (x l) (Z.of_nat start - Z.of_nat pad)) (Z.of_nat t - Z.of_nat (bs - 1)).
Proof.
  intros B. set (s := (Z.of_nat start - Z.of_nat pad)%Z). unfold equalized_block.
  destruct (block_ok h pad p start Hh) as (bp & Ep & Lp & Np); [rewrite Hp; exact B|]. fold bs in Ep, Lp, Np. fold s in Np.
  rewrite Ep. cbn [bind]. destruct (blocks_ok start B) as (Es & Nb). rewrite Es. cbn [bind]. fold s in Nb.
  replace (bs + bs - 1)%nat with (2 * bs - 1)%nat by lia. set (n := (2 * bs - 1)%nat).
  assert (bs <= n)%nat as Bn by (unfold n, bs; lia).
  unfold origin_mags. rewrite !map_length, Ha, Nat.eqb_refl. cbn [bind].
  set (o := map _ (combine att _)).
  assert (length o = length rws) as Lo by (unfold o; rewrite map_length, combine_length, !map_length; lia).
  assert (forall l k, (l < length rws)%nat -> (k < n)%nat -> nth k (nth l o []) 0 = at_ l * magnitude n bs (block bs (x l) s) k) as No.
  { intros l k L K. unfold o. rewrite (nth_map_in _ _ _ _ (0, [])) by (rewrite combine_length, !map_length; lia).
    rewrite nth_combine by (rewrite !map_length; exact Ha). cbn [fst snd].
    rewrite (nth_map_in _ _ _ _ []) by (rewrite map_length; exact L). rewrite (nth_map_in _ rws _ _ []) by exact L. fold (x l).
    rewrite (nth_map_in _ _ _ _ (0, 0)) by (rewrite length_fft; exact K).
    rewrite cabs_scal by apply Hn. destruct (Nb l L) as [A1 A2]. rewrite (cabs_fft _ bs n (block bs (x l) s) k) by auto. reflexivity. }
  set (mag := map _ (seq 0 n)).
  assert (length mag = n) as Lm by (unfold mag; rewrite map_length, seq_length; reflexivity).
  set (mag' := if soft then gain_clipping mag 1 else mag).
  assert (length mag' = n) as Lm' by (unfold mag', gain_clipping; destruct soft; rewrite ?map_length; exact Lm).
  assert (forall k, (k < n)%nat -> nth k mag' 0 = eq_gain b soft bs (length rws) at_ p x s k) as Nm.
  { intros k K. unfold mag'. rewrite clip_limited by lia. unfold eq_gain. fold n. f_equal. unfold mag. rewrite nth_map_seq by exact K.
    rewrite mixed_reference, (cabs_fft bp bs n (block bs p s) k) by auto. do 2 f_equal.
    - unfold coherent, together. rewrite (lsum_map_nth []), Lo. apply rsum_ext. intros l L. apply No; assumption.
    - unfold incoherent, in_power. f_equal. rewrite (lsum_map_nth []), Lo. apply rsum_ext. intros l L. rewrite No by assumption. unfold Rsqr. ring. }
  replace (negb (n mod 2 =? 0))%nat with true.
  2:{ unfold n, bs. replace (2 * (2 * h) - 1)%nat with (1 + (2 * h - 1) * 2)%nat by lia. rewrite Nat.mod_add by lia. reflexivity. }
  cbn [assert_ bind]. eexists. split; [reflexivity|]. rewrite !map_length. split; [reflexivity|].
  intros l L. rewrite (nth_map_in _ _ _ _ []) by (rewrite !map_length; exact L).
  rewrite (nth_map_in ifft_re _ _ _ []) by (rewrite !map_length; exact L).
  rewrite (nth_map_in _ (map _ (map _ rws)) _ _ []) by (rewrite !map_length; exact L).
  rewrite (nth_map_in _ (map _ rws) _ _ []) by (rewrite !map_length; exact L).
  rewrite (nth_map_in _ rws _ _ []) by exact L. fold (x l). destruct (Nb l L) as [A1 A2].
  set (Y := map _ (combine _ mag')).
  assert (length Y = n) as LY by (unfold Y; rewrite map_length, combine_length, length_fft; lia).
  assert (length (ifft_re Y) = n) as LI by (unfold ifft_re; rewrite map_length, seq_length; exact LY).
  assert (n / 2 = bs - 1)%nat as Hd.
  { unfold n, bs. replace (2 * (2 * h) - 1)%nat with (1 + (2 * h - 1) * 2)%nat by lia. rewrite Nat.div_add by lia. reflexivity. }
  split; [unfold np_roll; rewrite map_length, seq_length; exact LI|].
  intros t T. rewrite LI, Hd. apply (rolled_zero_phase n); auto; [lia| |lia].
  intros i I. apply (ifft_zero_phase (the_block start (x l)) bs n); auto.
  intros k K. unfold Y. rewrite (nth_map_in _ _ _ _ ((0, 0), 0)) by (rewrite combine_length, length_fft; lia).
  rewrite nth_combine by (rewrite length_fft; auto). cbn [fst snd]. rewrite Nm by exact K. reflexivity.
Qed.

(** * The loop *)
Lemma iadd_slice_ok out (a m : nat) v : (a + m <= length out)%nat -> length v = m ->
  exists out', iadd_slice out (Z.of_nat a) (Z.of_nat a + Z.of_nat m) v = Ok out' /\ length out' = length out /\
    forall n, nth n out' 0 = nth n out 0 + (if ((a <=? n) && (n <? a + m))%nat%bool then nth (n - a) v 0 else 0).
Proof.
  intros B <-. destruct (iadd_at_ok out a v B) as (out' & E & L & N). exists out'. split; [exact E|]. split; [exact L|].
  intros n. rewrite N. destruct (Nat.leb_spec a n); cbn [andb]; [|reflexivity].
  destruct (Nat.ltb_spec n (a + length v)); [reflexivity|]. rewrite (nth_overflow v) by lia. reflexivity.
Qed.
Lemma iadd_rows (a m : nat) N : (a + m <= N)%nat -> forall (bufs X : list (list R)), length X = length bufs ->
  (forall l, (l < length bufs)%nat -> length (nth l bufs []) = N) -> (forall l, (l < length bufs)%nat -> length (nth l X []) = m) ->
  exists bufs', mapM (fun q => iadd_slice (fst q) (Z.of_nat a) (Z.of_nat a + Z.of_nat m) (snd q)) (combine bufs X) = Ok bufs' /\
    length bufs' = length bufs /\ forall l, (l < length bufs)%nat -> length (nth l bufs' []) = N /\
      forall n, nth n (nth l bufs' []) 0 = nth n (nth l bufs []) 0 +
        (if ((a <=? n) && (n <? a + m))%nat%bool then nth (n - a) (nth l X []) 0 else 0).
Proof.
  intros B. induction bufs as [|r bufs IH]; intros [|v X] LX LB LV; cbn [length] in LX; try lia.
  - exists []. split; [reflexivity|]. split; [reflexivity|]. intros l L. cbn in L. lia.
  - destruct (iadd_slice_ok r a m v) as (r' & E & L & Q).
    { pose proof (LB 0%nat ltac:(cbn; lia)) as Q0. cbn in Q0. lia. }
    { apply (LV 0%nat). cbn. lia. }
    destruct (IH X) as (bufs' & E' & L' & Q'); [lia| | |].
    { intros l H. apply (LB (1 + l)%nat). cbn. lia. }
    { intros l H. apply (LV (1 + l)%nat). cbn. lia. }
    exists (r' :: bufs'). cbn [combine mapM fst snd]. rewrite E. cbn [bind]. rewrite E'. cbn [bind].
    split; [reflexivity|]. split; [cbn; lia|]. intros [|l] H; cbn [nth].
    + split; [rewrite L; apply (LB 0%nat); cbn; lia|exact Q].
    + apply Q'. cbn in H. lia.
Qed.

Lemma loop_blocks b soft N : (bs <= pad)%nat -> N = (S + 2 * pad + 2 * pad)%nat -> forall m fuel start bufs,
  (m < fuel)%nat -> (S + 2 * pad < start + bs + m * h)%nat ->
  (forall i, (i < m)%nat -> (start + i * h + bs <= S + 2 * pad)%nat) -> length bufs = length rws ->
  (forall l, (l < length rws)%nat -> length (nth l bufs []) = N) ->
  exists bufs', equalize_band fuel b soft att bs pad (padded pad p) (map (padded pad) rws) (S + 2 * pad) start bufs = Ok bufs' /\
    length bufs' = length rws /\ forall l, (l < length rws)%nat -> length (nth l bufs' []) = N /\
      forall q, (q < N)%nat -> nth q (nth l bufs' []) 0 = nth q (nth l bufs []) 0 +
        rsum m (fun i => eq_piece b soft bs (length rws) at_ p x l (Z.of_nat (start + i * h) - Z.of_nat pad) (Z.of_nat q - 2 * Z.of_nat pad)).
Proof.
  intros Bp EN. induction m as [|m IH]; intros fuel start bufs F E1 E2 Lb Ln.
  - destruct fuel as [|fuel]; [lia|]. cbn [equalize_band]. destruct (Nat.leb_spec (start + bs) (S + 2 * pad)); [lia|].
    exists bufs. split; [reflexivity|]. split; [exact Lb|]. intros l L. split; [apply Ln; exact L|]. intros q Q. cbn [rsum]. lra.
  - destruct fuel as [|fuel]; [lia|]. cbn [equalize_band].
    assert (start + bs <= S + 2 * pad)%nat as B by (specialize (E2 0%nat ltac:(lia)); lia).
    rewrite (proj2 (Nat.leb_le _ _) B). destruct (equalized_ok b soft start B) as (X & EX & LX & NX). rewrite EX. cbn [bind].
    replace (bs + bs - 1)%nat with (2 * bs - 1)%nat by lia.
    assert ((2 * bs - 1) / 2 = bs - 1)%nat as Hd.
    { unfold bs. replace (2 * (2 * h) - 1)%nat with (1 + (2 * h - 1) * 2)%nat by lia. rewrite Nat.div_add by lia. reflexivity. }
    rewrite Hd. assert (1 <= bs)%nat as B1 by (unfold bs; lia).
    replace (Z.of_nat pad + Z.of_nat start - Z.of_nat (bs - 1))%Z with (Z.of_nat (pad + start - (bs - 1))) by lia.
    destruct (iadd_rows (pad + start - (bs - 1)) (2 * bs - 1) N ltac:(lia) bufs X) as (bufs' & Eb & Lb' & Nb'); [lia| | |].
    { intros l L. apply Ln. lia. }
    { intros l L. apply NX. lia. }
    rewrite Eb. cbn [bind]. replace (bs / 2)%nat with h by (unfold bs; rewrite Nat.mul_comm, Nat.div_mul; lia).
    destruct (IH fuel (start + h)%nat bufs') as (out & EO & LO & NO); [lia|lia| |lia| |].
    { intros i I. specialize (E2 (1 + i)%nat ltac:(lia)). lia. }
    { intros l L. apply Nb'. lia. }
    exists out. split; [exact EO|]. split; [exact LO|]. intros l L. destruct (NO l L) as [A1 A2]. split; [exact A1|].
    intros q Q. rewrite A2 by exact Q. destruct (Nb' l ltac:(lia)) as [_ C]. rewrite C. rewrite rsum_shift, Rplus_assoc. f_equal. f_equal.
    + rewrite Nat.mul_0_l, Nat.add_0_r. unfold eq_piece.
      destruct (Z.ltb_spec (Z.abs (Z.of_nat q - 2 * Z.of_nat pad - (Z.of_nat start - Z.of_nat pad))) (Z.of_nat bs)) as [Y|Y].
      * destruct (Nat.leb_spec (pad + start - (bs - 1)) q); [|lia]. destruct (Nat.ltb_spec q (pad + start - (bs - 1) + (2 * bs - 1))); [|lia].
        cbn [andb]. rewrite (proj2 (NX l L)) by lia. f_equal. lia.
      * destruct (Nat.leb_spec (pad + start - (bs - 1)) q); cbn [andb]; [|reflexivity].
        destruct (Nat.ltb_spec q (pad + start - (bs - 1) + (2 * bs - 1))); [lia|reflexivity].
    + apply rsum_ext. intros i _. f_equal. lia.
Qed.

Lemma band_ok b soft fuel w : (bs <= pad)%nat -> (blocks bs pad S < fuel)%nat -> (1 <= length w)%nat ->
  exists bufs', band_rows fuel soft att pad (padded pad p) (map (padded pad) rws) (S + 2 * pad) (b, (Z.of_nat bs, w)) = Ok bufs' /\
    length bufs' = length rws /\ forall l, (l < length rws)%nat -> length (nth l bufs' []) = (S + 4 * pad)%nat /\
      forall q, (q < S + 4 * pad)%nat -> nth q (nth l bufs' []) 0 =
        smoothed w (S + 4 * pad) (fun q => eq_band b soft bs pad S (length rws) at_ p x l (Z.of_nat q - 2 * Z.of_nat pad)) q.
Proof.
  intros Bp F W. destruct (blocks_bound h pad S Hh ltac:(lia)) as [B1 B2]. unfold band_rows. cbn [fst snd]. rewrite Nat2Z.id.
  destruct (loop_blocks b soft (S + 2 * pad + 2 * pad) Bp eq_refl (blocks bs pad S) fuel 0 (map (fun _ => repeat 0 (S + 2 * pad + 2 * pad)) (map (padded pad) rws)))
    as (bufs & E & L & N); [exact F|exact B1|exact B2|rewrite !map_length; reflexivity| |].
  { intros l H. rewrite (nth_map_in _ _ _ _ []) by (rewrite map_length; exact H). apply repeat_length. }
  rewrite E. cbn [bind]. eexists. split; [reflexivity|]. rewrite map_length. split; [exact L|].
  intros l H. rewrite (nth_map_in _ _ _ _ []) by lia. destruct (N l H) as [N1 N2]. rewrite length_same by exact W. split; [lia|].
  intros q Q. rewrite nth_same by lia. rewrite N1. replace (S + 2 * pad + 2 * pad)%nat with (S + 4 * pad)%nat in * by lia.
  apply smoothed_ext. intros i I. rewrite N2 by exact I.
  rewrite (nth_map_in _ _ _ _ []) by (rewrite map_length; exact H). rewrite nth_repeat_in by exact I. rewrite Rplus_0_l.
  unfold eq_band, block_start. replace (bs / 2)%nat with h by (unfold bs; rewrite Nat.mul_comm, Nat.div_mul; lia). reflexivity.
Qed.
End Block.
