(** Post equalization: final form for fs >= 32000; windows; unit gains. *)
From Verif Require Import Base BaseFacts M_utils M_sig M_process M_decoder M_decoder3 M_parsa2 M_parsa3
  S_process S_decoder3 S_parsa2 S_parsa3 P_sig P_proc2 P_proc3 P_proc4 P_proc5 P_grids1 P_parsa8 P_parsa9 P_parsa10 P_parsa11 P_parsa12.
Open Scope R_scope.

Lemma fold_max l : forall m, (forall z, In z l -> (z <= m)%Z) -> fold_left Z.max l m = m.
Proof.
  induction l as [|z l IH]; intros m H; cbn [fold_left]; [reflexivity|].
  rewrite Z.max_l by (apply H; left; reflexivity). apply IH. intros y I. apply H. right. exact I.
Qed.
Lemma sizes_max fs bs : (32000 <= fs)%Z -> (forall b, (b < 10)%nat -> band_size fs b (bs b)) ->
  fold_left Z.max (map Z.of_nat (map bs (seq 0 10))) 0%Z = Z.of_nat (bs 0%nat).
Proof.
  intros Hf H.
  change (fold_left Z.max (map (fun i => Z.of_nat (bs (S i))) (seq 0 9)) (Z.max 0 (Z.of_nat (bs 0%nat))) = Z.of_nat (bs 0%nat)).
  rewrite (Z.max_r 0) by lia.
  apply fold_max. intros z I. apply in_map_iff in I. destruct I as (i & <- & I). apply in_seq in I.
  destruct (sizes_order fs (bs 0%nat) i (bs (S i)) Hf) as [Q _]; [apply H; lia|lia|apply H; lia|]. lia.
Qed.
Lemma sizes_even fs bs : (32000 <= fs)%Z -> (forall b, (b < 10)%nat -> band_size fs b (bs b)) -> forall b, (b < 10)%nat ->
  exists h, (1 <= h)%nat /\ bs b = (2 * h)%nat /\ (2 * h <= bs 0%nat)%nat.
Proof.
  intros Hf H b B.
  assert ((2 <= bs b <= bs 0)%nat /\ (bs b mod 2 = 0)%nat) as [Q1 Q2].
  { destruct b as [|b].
    - destruct (sizes_order fs (bs 0%nat) 0 (bs 1%nat) Hf) as (_ & _ & E & G); [apply H; lia|lia|apply H; lia|]. split; [lia|exact E].
    - destruct (sizes_order fs (bs 0%nat) b (bs (S b)) Hf) as (X & Y & _); [apply H; lia|lia|apply H; lia|]. split; assumption. }
  pose proof (Nat.div_mod (bs b) 2 ltac:(lia)) as D. exists (bs b / 2)%nat. lia.
Qed.

Definition fuel_for (S : nat) (bs : nat -> nat) : nat := list_max (map (fun b => blocks (bs b) (bs 0%nat) S) (seq 0 10)).
Lemma fuel_for_ok S bs b : (b < 10)%nat -> (blocks (bs b) (bs 0%nat) S <= fuel_for S bs)%nat.
Proof.
  intros B. assert (Forall (fun k => (k <= fuel_for S bs)%nat) (map (fun b => blocks (bs b) (bs 0%nat) S) (seq 0 10))) as F.
  { apply list_max_le. unfold fuel_for. lia. }
  rewrite Forall_forall in F. apply F. apply in_map_iff. exists b. split; [reflexivity|]. apply in_seq. lia.
Qed.

Lemma tap_parity p : (p mod 2 = 0)%nat -> (4 <= p)%nat -> negb ((Z.of_nat p / 2 - 1) mod 2 =? 0)%Z = (p mod 4 =? 0)%nat.
Proof.
  intros E G. apply Nat.mod_divides in E; [|lia]. destruct E as [q ->].
  replace (Z.of_nat (2 * q) / 2)%Z with (Z.of_nat q) by (rewrite Nat2Z.inj_mul, Z.mul_comm, Z.div_mul; lia).
  destruct (Nat.even q) eqn:Q.
  - apply Nat.even_spec in Q. destruct Q as [m ->]. replace (2 * (2 * m))%nat with (m * 4)%nat by lia. rewrite Nat.mod_mul by lia.
    replace (Z.of_nat (2 * m) - 1)%Z with (1 + (Z.of_nat m - 1) * 2)%Z by lia. rewrite Z.mod_add by lia. reflexivity.
  - assert (Nat.odd q = true) as O by (unfold Nat.odd; rewrite Q; reflexivity). apply Nat.odd_spec in O. destruct O as [m ->].
    replace (2 * (2 * m + 1))%nat with (2 + m * 4)%nat by lia. rewrite Nat.mod_add by lia.
    replace (Z.of_nat (2 * m + 1) - 1)%Z with (0 + (Z.of_nat m) * 2)%Z by lia. rewrite Z.mod_add by lia. reflexivity.
Qed.

Lemma post_eq_taps firwin2 ls p fs d a soft bs : (32000 <= fs <= 1000000)%Z -> (forall b, (b < 10)%nat -> band_size fs b (bs b)) ->
  (bs 0 mod 4 <> 0)%nat -> exists fuel0, forall fuel, (fuel0 <= fuel)%nat ->
  sdm_post_equalization firwin2 fuel ls p fs d a soft = Err AssertionError.
Proof.
  intros Hf Hb H4. destruct (bank_ok fs Amplitude Hf ltac:(discriminate)) as (f0 & g & E & _). exists f0. intros fuel Hfu.
  unfold sdm_post_equalization. rewrite E by exact Hfu. cbn [bind]. rewrite (limits_sizes fs bs Hb), (sizes_max fs bs ltac:(lia) Hb).
  destruct (sizes_order fs (bs 0%nat) 0 (bs 1%nat) ltac:(lia)) as (_ & _ & E2 & G); [apply Hb; lia|lia|apply Hb; lia|].
  unfold band_filters. rewrite tap_parity by assumption. rewrite (proj2 (Nat.eqb_neq _ _) H4). reflexivity.
Qed.

Lemma post_eq_final firwin2 ls p fs d a soft bs : (32000 <= fs <= 1000000)%Z -> (forall b, (b < 10)%nat -> band_size fs b (bs b)) ->
  (bs 0 mod 4 = 0)%nat -> (forall nt g, Nat.odd nt = true -> (2 <= length g)%nat -> exists h, firwin2 nt g = Ok h /\ length h = nt) ->
  length p = nc ls -> length d = nr ls -> (forall l, (l < nr ls)%nat -> 0 < nth l d 0) ->
  exists gs irs fuel0, length gs = 10%nat /\ (forall b, (b < 10)%nat -> length (nth b gs []) = (2 ^ 16)%nat) /\
    (forall j, (j < 2 ^ 16)%nat -> (forall b, (b < 10)%nat -> 0 <= nth j (nth b gs []) 0 <= 1) /\
       rsum 10 (fun b => nth j (nth b gs []) 0) = 1) /\
    (forall b, (b < 10)%nat -> firwin2 (bs 0 / 2 - 1)%nat (nth b gs []) = Ok (irs b) /\ length (irs b) = (bs 0 / 2 - 1)%nat) /\
    forall fuel, (fuel0 <= fuel)%nat ->
      (exists ff, frac_octave_filterbank fuel 1 (2 ^ 16) fs (625 / 10) (Some 16000) Amplitude (5 / 10) 3 = Ok (gs, ff)) /\
      exists out warned, sdm_post_equalization firwin2 fuel ls p fs d a soft = Ok (Some (out, warned)) /\
        nr out = nr ls /\ nc out = nc ls /\
        let F := eq_out irs 10 bs soft (bs 0%nat) (nc ls) (nr ls) (fun l => / Rpower (nth l d 0) a) p
                   (fun l => map (ent ls l) (seq 0 (nc ls))) in
        (forall l u, (l < nr ls)%nat -> (u < nc ls)%nat -> ent out l u = F l (Z.of_nat u)) /\
        (warned = true <-> exists l v, (l < nr ls)%nat /\ (- 2 * Z.of_nat (bs 0%nat) <= v <= 0)%Z /\ 1 / 10 ^ 4 < Rabs (F l v)).
Proof.
  intros Hf Hb H4 Hfw Hp Hd Hd0. destruct (bank_ok fs Amplitude Hf ltac:(discriminate)) as (f0 & g & E & Lg & Lr & V).
  destruct (sizes_order fs (bs 0%nat) 0 (bs 1%nat) ltac:(lia)) as (_ & _ & E2 & G); [apply Hb; lia|lia|apply Hb; lia|].
  set (pad := bs 0%nat) in *.
  assert (Z.to_nat (Z.of_nat pad / 2 - 1) = (pad / 2 - 1)%nat) as Nt.
  { rewrite <- (Nat2Z.id (pad / 2 - 1)). f_equal. rewrite Nat2Z.inj_sub, Nat2Z.inj_div; [reflexivity|]. apply Nat.div_le_lower_bound; lia. }
  assert (1 <= Z.of_nat pad / 2 - 1)%Z as N1 by (pose proof (Z.div_le_lower_bound (Z.of_nat pad) 2 2 ltac:(lia) ltac:(lia)); lia).
  assert (Nat.odd (pad / 2 - 1) = true) as Od.
  { apply Nat.mod_divides in H4; [|lia]. destruct H4 as [q Q]. rewrite Q. replace (4 * q)%nat with ((2 * q) * 2)%nat by lia. rewrite Nat.div_mul by lia.
    apply Nat.odd_spec. exists (q - 1)%nat. lia. }
  destruct (mapM_nth_ex [] [] (fun g => let* h := firwin2 (Z.to_nat (Z.of_nat pad / 2 - 1)) g in
                 if Nat.eqb (length h) (Z.to_nat (Z.of_nat pad / 2 - 1)) then Ok h else Err ValueError)
    (fun b h => firwin2 (pad / 2 - 1)%nat (nth b g []) = Ok h /\ length h = (pad / 2 - 1)%nat) g 0) as (irs & Ei & Li & Ni).
  { intros b B. cbn [Nat.add]. rewrite Nt. destruct (Hfw (pad / 2 - 1)%nat (nth b g []) Od) as (h & Eh & Lh); [rewrite Lr by lia; apply (Nat.pow_le_mono_r 2 1 16); lia|]. exists h. rewrite Eh. cbn [bind].
    rewrite Lh, Nat.eqb_refl. auto. }
  cbn [Nat.add] in Ni. rewrite Lg in Li, Ni.
  exists g, (fun b => nth b irs []), (f0 + (fuel_for (nc ls) bs + 1))%nat. split; [exact Lg|]. split; [exact Lr|]. split; [exact V|]. split; [exact Ni|].
  intros fuel Hfu. split; [eexists; apply E; lia|].
  assert (length (map bs (seq 0 10)) = 10%nat) as Lb by (rewrite map_length, seq_length; reflexivity).
  destruct (post_eq_ok firwin2 fuel ls p fs d a soft g _ (map bs (seq 0 10)) pad irs (E fuel ltac:(lia)) (limits_sizes fs bs Hb)) as (out & warned & A1 & A2 & A3 & A4 & A5).
  - intros b B. rewrite Lb in B. rewrite nth_map_seq by exact B. apply (sizes_even fs bs); auto. lia.
  - apply (sizes_max fs); [lia|exact Hb].
  - unfold band_filters. rewrite tap_parity by assumption. rewrite H4. cbn [Nat.eqb assert_ bind].
    destruct (Z.ltb_spec (Z.of_nat pad / 2 - 1) 0); [lia|]. exact Ei.
  - rewrite Lb. exact Li.
  - intros b B. rewrite Lb in B. destruct (Ni b B) as [_ ->]. rewrite <- Nt. lia.
  - exact Hp.
  - exact Hd.
  - exact Hd0.
  - intros b B. rewrite Lb in B. rewrite nth_map_seq by exact B. pose proof (fuel_for_ok (nc ls) bs b B). fold pad in H. cbn [Nat.add]. lia.
  - exists out, warned. split; [exact A1|]. split; [exact A2|]. split; [exact A3|]. rewrite Lb in A4, A5.
    assert (forall l v, eq_out (fun b => nth b irs []) 10 (fun b => nth b (map bs (seq 0 10)) 0%nat) soft pad (nc ls) (nr ls)
      (fun l => / Rpower (nth l d 0) a) p (fun l => map (ent ls l) (seq 0 (nc ls))) l v =
      eq_out (fun b => nth b irs []) 10 bs soft pad (nc ls) (nr ls) (fun l => / Rpower (nth l d 0) a) p (fun l => map (ent ls l) (seq 0 (nc ls))) l v) as Q.
    { intros l v. unfold eq_out. apply rsum_ext. intros b B. rewrite nth_map_seq by exact B. reflexivity. }
    cbv zeta. split.
    + intros l u Hl Hu. rewrite A4 by assumption. apply Q.
    + rewrite A5. split; intros (l & v & X1 & X2 & X3); exists l, v; (split; [exact X1|]; split; [exact X2|]).
      * rewrite <- Q. exact X3.
      * rewrite Q. exact X3.
Qed.

(** ** Windows *)
Lemma hann_half h j : (1 <= h)%nat -> (j < h)%nat -> hann (2 * h + 1) j + hann (2 * h + 1) (j + h) = 1.
Proof.
  intros H J. unfold hann. replace (2 * h + 1 - 1)%nat with (2 * h)%nat by lia. rewrite plus_INR, mult_INR. change (INR 2) with 2.
  assert (INR h <> 0) by (apply not_0_INR; lia).
  replace (PI * (INR j + INR h) / (2 * INR h)) with (PI / 2 + PI * INR j / (2 * INR h)) by (field; assumption).
  rewrite sin_plus, cos_PI2, sin_PI2. rewrite Rmult_1_l, Rmult_0_l, Rplus_0_r. apply sin2_cos2.
Qed.
Lemma rsum_two n f i : (1 <= i < n)%nat -> (forall j, (j < n)%nat -> j <> i -> j <> (i - 1)%nat -> f j = 0) -> rsum n f = f (i - 1)%nat + f i.
Proof.
  intros I Z. rewrite (rsum_ext n f (fun j => (if Nat.eqb j (i - 1) then f j else 0) + (if Nat.eqb j i then f j else 0))).
  - rewrite rsum_plus. rewrite (rsum_single _ (i - 1)%nat); [|lia|intros j J N; rewrite (proj2 (Nat.eqb_neq _ _) N); reflexivity].
    rewrite (rsum_single _ i); [|lia|intros j J N; rewrite (proj2 (Nat.eqb_neq _ _) N); reflexivity]. rewrite !Nat.eqb_refl. reflexivity.
  - intros j J. destruct (Nat.eqb_spec j (i - 1)); destruct (Nat.eqb_spec j i); try lia; try lra. rewrite Z by assumption. lra.
Qed.
Lemma blocks_half h pad S : (1 <= h)%nat -> blocks (2 * h) pad S = ((S + 2 * pad - 2 * h) / h + 1)%nat.
Proof. intros H. unfold blocks. replace (2 * h / 2)%nat with h by (rewrite Nat.mul_comm, Nat.div_mul; lia). reflexivity. Qed.
(** a sum over the blocks picks the two that contain [v] *)
Lemma two_blocks h pad S v (f : nat -> R) : (1 <= h)%nat -> (2 * h <= pad)%nat -> (0 <= v < Z.of_nat S)%Z ->
  (forall i, (v - block_start (2 * h) pad i < 0 \/ Z.of_nat (2 * h) <= v - block_start (2 * h) pad i)%Z -> f i = 0) ->
  exists i j, (1 <= i)%nat /\ (j < h)%nat /\ rsum (blocks (2 * h) pad S) f = f (i - 1)%nat + f i /\
    (v - block_start (2 * h) pad i = Z.of_nat j)%Z /\ (v - block_start (2 * h) pad (i - 1) = Z.of_nat (j + h))%Z.
Proof.
  intros H B V Z0. assert (forall i, block_start (2 * h) pad i = Z.of_nat (i * h) - Z.of_nat pad)%Z as Bs.
  { intros i. unfold block_start. replace (2 * h / 2)%nat with h by (rewrite Nat.mul_comm, Nat.div_mul; lia). reflexivity. }
  set (w := Z.to_nat (v + Z.of_nat pad)). assert (Z.of_nat w = v + Z.of_nat pad)%Z as W by (unfold w; lia).
  pose proof (Nat.div_mod w h ltac:(lia)) as D. pose proof (Nat.mod_upper_bound w h ltac:(lia)) as M. set (i := (w / h)%nat) in *. set (j := (w mod h)%nat) in *.
  assert (2 <= i)%nat as I1. { assert (2 * h <= w)%nat by lia. unfold i. apply Nat.div_le_lower_bound; lia. }
  assert (i < blocks (2 * h) pad S)%nat as I2.
  { rewrite blocks_half by exact H. assert (i <= (S + 2 * pad - 2 * h) / h)%nat; [|lia]. apply Nat.div_le_lower_bound; [lia|].
    assert (w < S + pad)%nat by lia. lia. }
  clearbody i j w. exists i, j. rewrite !Bs. split; [lia|]. split; [exact M|]. split.
  - apply rsum_two; [lia|]. intros i' I' N1 N2. apply Z0. rewrite Bs.
    destruct (Nat.lt_ge_cases i' i) as [Y|Y].
    + right. assert (i' * h + 2 * h <= i * h)%nat by (replace (i' * h + 2 * h)%nat with ((i' + 2) * h)%nat by lia; apply Nat.mul_le_mono_r; lia). lia.
    + left. assert (i * h + h <= i' * h)%nat by (replace (i * h + h)%nat with ((i + 1) * h)%nat by lia; apply Nat.mul_le_mono_r; lia). lia.
  - replace ((i - 1) * h)%nat with (i * h - h)%nat by (rewrite Nat.mul_sub_distr_r; lia). assert (h <= i * h)%nat by nia. split; lia.
Qed.
Lemma windows_one h pad S v : (1 <= h)%nat -> (2 * h <= pad)%nat -> (0 <= v < Z.of_nat S)%Z -> window_sum (2 * h) pad S v = 1.
Proof.
  intros H B V. unfold window_sum.
  destruct (two_blocks h pad S v (fun i => let j := (v - block_start (2 * h) pad i)%Z in
    if (0 <=? j)%Z && (j <? Z.of_nat (2 * h))%Z then hann (2 * h + 1) (Z.to_nat j) else 0) H B V) as (i & j & I & J & E & A & C).
  - intros i Q. cbv zeta. destruct (Z.leb_spec 0 (v - block_start (2 * h) pad i)); cbn [andb]; [|reflexivity].
    destruct (Z.ltb_spec (v - block_start (2 * h) pad i) (Z.of_nat (2 * h))); [lia|reflexivity].
  - etransitivity; [exact E|]. cbv zeta. rewrite A, C. destruct (Z.leb_spec 0 (Z.of_nat (j + h))); [|lia]. destruct (Z.ltb_spec (Z.of_nat (j + h)) (Z.of_nat (2 * h))); [|lia].
    destruct (Z.leb_spec 0 (Z.of_nat j)); [|lia]. destruct (Z.ltb_spec (Z.of_nat j) (Z.of_nat (2 * h))); [|lia]. cbn [andb]. rewrite !Nat2Z.id.
    rewrite Rplus_comm. apply hann_half; assumption.
Qed.

(** ** Gains of one *)
Lemma kernel_one n v : (0 < n)%nat -> (Z.abs v < Z.of_nat n)%Z -> kernel n (fun _ => 1) v = if (v =? 0)%Z then 1 else 0.
Proof.
  intros N V. unfold kernel. assert (INR n <> 0) as N0 by (apply not_0_INR; lia). destruct (Z.eqb_spec v 0) as [->|Z0].
  - rewrite (rsum_ext n _ (fun _ => 1)).
    + rewrite rsum_const. field. exact N0.
    + intros k K. replace (2 * PI * INR k * 0 / INR n) with 0 by (field; exact N0). rewrite cos_0. lra.
  - rewrite (rsum_ext n _ (fun k => cos (INR k * (INR (Z.to_nat (Z.abs v)) * (2 * PI / INR n)) + 0))).
    + rewrite azi_cos by lia. lra.
    + intros k K. rewrite Rmult_1_l, Rplus_0_r, (INR_IZR_INZ (Z.to_nat (Z.abs v))), Z2Nat.id by lia.
      destruct (Z.abs_spec v) as [[_ ->]|[_ ->]].
      * f_equal. field. exact N0.
      * rewrite <- cos_neg, opp_IZR. f_equal. field. exact N0.
Qed.
Lemma zero_phase_one n m f v : (0 < n)%nat -> (- Z.of_nat n + Z.of_nat m <= v < Z.of_nat n)%Z ->
  zero_phase n m (fun _ => 1) f v = if (0 <=? v)%Z && (v <? Z.of_nat m)%Z then f (Z.to_nat v) else 0.
Proof.
  intros N V. unfold zero_phase.
  destruct (Z.leb_spec 0 v) as [A|A]; cbn [andb].
  - destruct (Z.ltb_spec v (Z.of_nat m)) as [B|B].
    + rewrite (rsum_single _ (Z.to_nat v)); [|lia|].
      * rewrite kernel_one by lia. rewrite (proj2 (Z.eqb_eq _ _)) by lia. lra.
      * intros j J Q. rewrite kernel_one by lia. rewrite (proj2 (Z.eqb_neq _ _)) by lia. lra.
    + apply rsum_0. intros j J. rewrite kernel_one by lia. rewrite (proj2 (Z.eqb_neq _ _)) by lia. lra.
  - apply rsum_0. intros j J. rewrite kernel_one by lia. rewrite (proj2 (Z.eqb_neq _ _)) by lia. lra.
Qed.
(** only the gains of bins that carry something matter *)
Lemma magnitude_zero n m f k : magnitude n m f k = 0 ->
  rsum m (fun j => f j * cos (2 * PI * INR (j * k) / INR n)) = 0 /\ rsum m (fun j => f j * sin (2 * PI * INR (j * k) / INR n)) = 0.
Proof.
  unfold magnitude. set (a := rsum m _). set (b := rsum m _). intros H. pose proof (Rle_0_sqr a). pose proof (Rle_0_sqr b).
  apply sqrt_eq_0 in H; [|lra]. split; apply Rsqr_0_uniq; lra.
Qed.
Lemma zero_phase_bins n m g g' f v : (0 < n)%nat -> (forall k, (k < n)%nat -> magnitude n m f k = 0 \/ g k = g' k) ->
  zero_phase n m g f v = zero_phase n m g' f v.
Proof.
  intros N H. assert (INR n <> 0) as N0 by (apply not_0_INR; lia).
  assert (forall g, zero_phase n m g f v = / INR n * rsum n (fun k => g k *
    (cos (2 * PI * INR k * IZR v / INR n) * rsum m (fun j => f j * cos (2 * PI * INR (j * k) / INR n)) +
     sin (2 * PI * INR k * IZR v / INR n) * rsum m (fun j => f j * sin (2 * PI * INR (j * k) / INR n))))) as Q.
  { intros g0. unfold zero_phase, kernel.
    transitivity (rsum m (fun j => rsum n (fun k => / INR n * (g0 k * (f j * cos (2 * PI * INR k * IZR (v - Z.of_nat j) / INR n)))))).
    - apply rsum_ext. intros j J. rewrite <- !rsum_scal. apply rsum_ext. intros k K. ring.
    - rewrite rsum_swap. rewrite <- rsum_scal. apply rsum_ext. intros k K. rewrite <- !rsum_scal. rewrite <- rsum_plus, <- !rsum_scal.
      apply rsum_ext. intros j J. rewrite minus_IZR, <- INR_IZR_INZ, mult_INR.
      replace (2 * PI * INR k * (IZR v - INR j) / INR n) with (2 * PI * INR k * IZR v / INR n - 2 * PI * (INR j * INR k) / INR n) by (field; exact N0).
      rewrite cos_minus. ring. }
  rewrite !Q. f_equal. apply rsum_ext. intros k K. destruct (H k K) as [M| ->]; [|reflexivity].
  destruct (magnitude_zero n m f k M) as [-> ->]. ring.
Qed.

(** every block is left alone: the band is the signal *)
Lemma band_identity b soft h pad S L att p x l v : (1 <= h)%nat -> (2 * h <= pad)%nat -> length (x l) = S ->
  (forall i k, (i < blocks (2 * h) pad S)%nat -> (k < 2 * (2 * h) - 1)%nat ->
    magnitude (2 * (2 * h) - 1) (2 * h) (block (2 * h) (x l) (block_start (2 * h) pad i)) k = 0 \/
    eq_gain b soft (2 * h) L att p x (block_start (2 * h) pad i) k = 1) ->
  eq_band b soft (2 * h) pad S L att p x l v = sig_at (x l) v.
Proof.
  intros H B LX HG. set (n := (2 * (2 * h) - 1)%nat) in *.
  assert (forall i, (i < blocks (2 * h) pad S)%nat -> eq_piece b soft (2 * h) L att p x l (block_start (2 * h) pad i) v =
    let j := (v - block_start (2 * h) pad i)%Z in if (0 <=? j)%Z && (j <? Z.of_nat (2 * h))%Z then hann (2 * h + 1) (Z.to_nat j) * sig_at (x l) v else 0) as P.
  { intros i I. unfold eq_piece. cbv zeta. set (s := block_start (2 * h) pad i) in *.
    destruct (Z.ltb_spec (Z.abs (v - s)) (Z.of_nat (2 * h))) as [Y|Y].
    - fold n. rewrite (zero_phase_bins n (2 * h) _ (fun _ => 1)) by (unfold n; [lia|]||(intros k K; apply HG; assumption)||lia).
      rewrite zero_phase_one by (unfold n; lia). destruct (Z.leb_spec 0 (v - s)); cbn [andb]; [|reflexivity].
      destruct (Z.ltb_spec (v - s) (Z.of_nat (2 * h))); [|reflexivity]. unfold block. do 2 f_equal. lia.
    - destruct (Z.leb_spec 0 (v - s)); cbn [andb]; [|reflexivity]. destruct (Z.ltb_spec (v - s) (Z.of_nat (2 * h))); [lia|reflexivity]. }
  unfold eq_band. rewrite (rsum_ext _ _ _ P).
  destruct (Z.lt_ge_cases v 0) as [V|V]; [|destruct (Z.lt_ge_cases v (Z.of_nat S)) as [V'|V']].
  - assert (sig_at (x l) v = 0) as E by (unfold sig_at; destruct (Z.leb_spec 0 v); [lia|reflexivity]). rewrite E.
    apply rsum_0. intros i I. cbv zeta. destruct (_ && _); [ring|reflexivity].
  - transitivity (window_sum (2 * h) pad S v * sig_at (x l) v).
    + unfold window_sum. rewrite Rmult_comm, <- rsum_scal. apply rsum_ext. intros i I. cbv zeta. destruct (_ && _); ring.
    + rewrite windows_one by auto. ring.
  - assert (sig_at (x l) v = 0) as E.
    { unfold sig_at; destruct (Z.leb_spec 0 v); [|reflexivity]. apply nth_overflow. lia. }
    rewrite E. apply rsum_0. intros i I. cbv zeta. destruct (_ && _); [ring|reflexivity].
Qed.
