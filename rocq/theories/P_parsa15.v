(** Post equalization: an impulse, and what the truncation warning sees. *)
From Verif Require Import Base BaseFacts M_utils M_sig M_process M_decoder M_decoder3 M_parsa2 M_parsa3
  S_process S_decoder3 S_parsa2 S_parsa3 P_sig P_proc2 P_proc3 P_proc4 P_proc5 P_parsa8 P_parsa9 P_parsa10 P_parsa11 P_parsa12 P_parsa13 P_parsa14.
Open Scope R_scope.

Definition impulse (u0 : nat) : list R := repeat 0 u0 ++ [1].
Lemma length_impulse u0 : length (impulse u0) = (u0 + 1)%nat.
Proof. unfold impulse. rewrite app_length, repeat_length. reflexivity. Qed.
Lemma nth_impulse u0 u : nth u (impulse u0) 0 = if (u =? u0)%nat then 1 else 0.
Proof.
  unfold impulse. destruct (Nat.eqb_spec u u0) as [->|N].
  - rewrite app_nth2 by (rewrite repeat_length; lia). rewrite repeat_length, Nat.sub_diag. reflexivity.
  - destruct (Nat.lt_ge_cases u u0) as [A|A].
    + rewrite app_nth1 by (rewrite repeat_length; exact A). apply nth_repeat_in. exact A.
    + apply nth_overflow. rewrite app_length, repeat_length. cbn [length]. lia.
Qed.
Lemma sig_impulse u0 v : sig_at (impulse u0) v = if (v =? Z.of_nat u0)%Z then 1 else 0.
Proof.
  unfold sig_at. rewrite nth_impulse. destruct (Z.leb_spec 0 v); destruct (Z.eqb_spec v (Z.of_nat u0)); try lia; try reflexivity.
  - rewrite (proj2 (Nat.eqb_eq _ _)) by lia. reflexivity.
  - rewrite (proj2 (Nat.eqb_neq _ _)) by lia. reflexivity.
Qed.

Section Impulse.
Variables (b : nat) (soft : bool) (h pad u0 : nat) (att : nat -> R).
Hypothesis H : (1 <= h)%nat.
Hypothesis B : (2 * h <= pad)%nat.
Hypothesis Ha : att 0%nat = 1.
Let bs := (2 * h)%nat.
Let n := (2 * bs - 1)%nat.
Let p := impulse u0.
Let x := fun _ : nat => p.
Definition held (w : R) : R := w * (w / at_least (1 / 10 ^ 9) w).

Lemma held_bounds w : 0 <= w -> 0 <= held w <= w.
Proof.
  intros W. unfold held. destruct (at_least_pos w) as [A C]. assert (0 <= w / at_least (1 / 10 ^ 9) w <= 1) as Q; [|nra].
  split; [apply Rmult_le_pos; [exact W|left; apply Rinv_0_lt_compat; exact A]|].
  apply (Rmult_le_reg_r (at_least (1 / 10 ^ 9) w)); [exact A|]. unfold Rdiv. rewrite Rmult_assoc, Rinv_l by lra. lra.
Qed.
Lemma held_large w : 1 / 10 ^ 9 < w -> held w = w.
Proof.
  intros W. assert (0 < 1 / 10 ^ 9) by (apply Rdiv_lt_0_compat; [lra|apply pow_lt; lra]).
  unfold held, at_least. destruct (Rle_dec w (1 / 10 ^ 9)); [lra|]. field. lra.
Qed.
Lemma hann_nonneg m j : 0 <= hann m j.
Proof. apply Rle_0_sqr. Qed.

Lemma piece_outside l s v : (Z.of_nat u0 - s < 0 \/ Z.of_nat bs <= Z.of_nat u0 - s)%Z -> eq_piece b soft bs 1 att p x l s v = 0.
Proof.
  intros Q. unfold eq_piece. destruct (_ <? _)%Z; [|reflexivity]. unfold zero_phase. apply rsum_0. intros j J.
  unfold block, x, p. rewrite sig_impulse. rewrite (proj2 (Z.eqb_neq _ _)) by lia. ring.
Qed.
Lemma piece_inside l s v j0 : (Z.of_nat u0 - s = Z.of_nat j0)%Z -> (j0 < bs)%nat ->
  eq_piece b soft bs 1 att p x l s v = if (v =? Z.of_nat u0)%Z then held (hann (bs + 1) j0) else 0.
Proof.
  intros E J0. set (w := hann (bs + 1) j0). assert (0 <= w) as W by apply hann_nonneg.
  assert (forall j, (j < bs)%nat -> block bs p s j = if (j =? j0)%nat then w else 0) as Bk.
  { intros j J. unfold block, p. rewrite sig_impulse. destruct (Nat.eqb_spec j j0) as [->|N].
    - rewrite (proj2 (Z.eqb_eq _ _)) by lia. unfold w. ring.
    - rewrite (proj2 (Z.eqb_neq _ _)) by lia. ring. }
  assert (forall k, magnitude n bs (block bs p s) k = w) as Mg.
  { intros k. unfold magnitude. rewrite (rsum_single _ j0); [|exact J0|intros j J N; rewrite Bk by exact J; rewrite (proj2 (Nat.eqb_neq _ _) N); ring].
    rewrite (rsum_single _ j0); [|exact J0|intros j J N; rewrite Bk by exact J; rewrite (proj2 (Nat.eqb_neq _ _) N); ring].
    rewrite Bk, Nat.eqb_refl by exact J0. rewrite !Rsqr_mult, <- Rmult_plus_distr_l, (Rplus_comm (Rsqr (cos _))), sin2_cos2, Rmult_1_r. apply sqrt_Rsqr. exact W. }
  set (gm := w / at_least (1 / 10 ^ 9) w).
  assert (gm <= 1) as G1.
  { destruct (at_least_pos w) as [A C]. apply (Rmult_le_reg_r (at_least (1 / 10 ^ 9) w)); [exact A|]. unfold gm, Rdiv. rewrite Rmult_assoc, Rinv_l by lra. lra. }
  assert (forall k, eq_gain b soft bs 1 att p x s k = gm) as Gn.
  { intros k. unfold eq_gain, x. cbv zeta. fold n. rewrite Mg. unfold together, in_power. cbn [rsum]. rewrite ?Mg, Ha, !Rmult_1_l, !Rplus_0_l, sqrt_Rsqr by exact W.
    replace (reference b w w) with (at_least (1 / 10 ^ 9) w) by (unfold reference; ring). fold gm. unfold limited. destruct soft; [|reflexivity].
    destruct (Rle_dec gm 1); [reflexivity|lra]. }
  unfold eq_piece. destruct (Z.ltb_spec (Z.abs (v - s)) (Z.of_nat bs)) as [Y|Y].
  - fold n. transitivity (gm * zero_phase n bs (fun _ => 1) (block bs (x l) s) (v - s)).
    + unfold zero_phase. rewrite <- rsum_scal. apply rsum_ext. intros j J. unfold kernel. rewrite (rsum_ext n (fun k => eq_gain b soft bs 1 att p x s k * _) (fun k => gm * (1 * cos (2 * PI * INR k * IZR (v - s - Z.of_nat j) / INR n)))).
      * rewrite rsum_scal. ring.
      * intros k K. rewrite Gn. ring.
    + rewrite zero_phase_one by (unfold n, bs in *; lia). unfold x. destruct (Z.leb_spec 0 (v - s)); cbn [andb].
      * destruct (Z.ltb_spec (v - s) (Z.of_nat bs)); [|lia]. rewrite Bk by lia.
        destruct (Z.eqb_spec v (Z.of_nat u0)).
        -- rewrite (proj2 (Nat.eqb_eq _ _)) by lia. unfold held. fold gm. ring.
        -- rewrite (proj2 (Nat.eqb_neq _ _)) by lia. ring.
      * destruct (Z.eqb_spec v (Z.of_nat u0)); [lia|ring].
  - destruct (Z.eqb_spec v (Z.of_nat u0)); [lia|reflexivity].
Qed.

Lemma impulse_band l : exists c, 1 / 2 <= c <= 1 /\ forall v,
  eq_band b soft bs pad (u0 + 1) 1 att p x l v = if (v =? Z.of_nat u0)%Z then c else 0.
Proof.
  set (f := fun i => let j := (Z.of_nat u0 - block_start bs pad i)%Z in
    if (0 <=? j)%Z && (j <? Z.of_nat bs)%Z then held (hann (bs + 1) (Z.to_nat j)) else 0).
  assert (forall i v, eq_piece b soft bs 1 att p x l (block_start bs pad i) v = if (v =? Z.of_nat u0)%Z then f i else 0) as P.
  { intros i v. unfold f. cbv zeta. destruct (Z.leb_spec 0 (Z.of_nat u0 - block_start bs pad i)); cbn [andb].
    - destruct (Z.ltb_spec (Z.of_nat u0 - block_start bs pad i) (Z.of_nat bs)).
      + apply piece_inside; lia.
      + rewrite piece_outside by lia. destruct (_ =? _)%Z; reflexivity.
    - rewrite piece_outside by lia. destruct (_ =? _)%Z; reflexivity. }
  destruct (two_blocks h pad (u0 + 1) (Z.of_nat u0) f H B ltac:(lia)) as (i & j & I & J & E & A & C).
  { intros i Q. unfold f. cbv zeta. fold bs in Q. destruct (Z.leb_spec 0 (Z.of_nat u0 - block_start bs pad i)); cbn [andb]; [|reflexivity].
    destruct (Z.ltb_spec (Z.of_nat u0 - block_start bs pad i) (Z.of_nat bs)); [lia|reflexivity]. }
  fold bs in E, A, C.
  assert (f (i - 1)%nat = held (hann (bs + 1) (j + h))) as F1.
  { unfold f. cbv zeta. rewrite C. destruct (Z.leb_spec 0 (Z.of_nat (j + h))); [|lia]. destruct (Z.ltb_spec (Z.of_nat (j + h)) (Z.of_nat bs)); [|unfold bs in *; lia].
    cbn [andb]. rewrite Nat2Z.id. reflexivity. }
  assert (f i = held (hann (bs + 1) j)) as F2.
  { unfold f. cbv zeta. rewrite A. destruct (Z.leb_spec 0 (Z.of_nat j)); [|lia]. destruct (Z.ltb_spec (Z.of_nat j) (Z.of_nat bs)); [|unfold bs in *; lia].
    cbn [andb]. rewrite Nat2Z.id. reflexivity. }
  exists (f (i - 1)%nat + f i). split.
  - rewrite F1, F2. pose proof (hann_half h j H J) as W. fold bs in W. pose proof (hann_nonneg (bs + 1) j). pose proof (hann_nonneg (bs + 1) (j + h)).
    set (w1 := hann (bs + 1) j) in *. set (w2 := hann (bs + 1) (j + h)) in *. pose proof (held_bounds w1 ltac:(assumption)). pose proof (held_bounds w2 ltac:(assumption)).
    assert (1 / 10 ^ 9 < 1 / 2) by (apply (Rmult_lt_reg_r (10 ^ 9)); [apply pow_lt; lra|]; unfold Rdiv at 1; rewrite Rmult_assoc, Rinv_l by (apply pow_nonzero; lra); lra).
    split; [|lra]. destruct (Rle_lt_dec (1 / 2) w1).
    + rewrite (held_large w1) by lra. lra.
    + rewrite (held_large w2) by lra. lra.
  - intros v. unfold eq_band. rewrite (rsum_ext _ _ (fun i => if (v =? Z.of_nat u0)%Z then f i else 0)) by (intros; apply P).
    destruct (v =? Z.of_nat u0)%Z; [exact E|apply rsum_0; reflexivity].
Qed.
End Impulse.

(** ** The warning *)
(** one loudspeaker at distance one carrying the impulse *)
Definition impulse_mat (u0 : nat) : mat := Mat 1 (u0 + 1) (fun _ u => nth u (impulse u0) 0).
Lemma impulse_row u0 l : map (ent (impulse_mat u0) l) (seq 0 (u0 + 1)) = impulse u0.
Proof.
  apply (nth_ext_list 0); rewrite map_length, seq_length; [rewrite length_impulse; reflexivity|]. intros i I. rewrite nth_map_seq by exact I. reflexivity.
Qed.
(** a design that repeats the first gain at every tap, and one that puts it on the middle tap *)
Definition flat_design (nt : nat) (g : list R) : res (list R) := Ok (repeat (nth 0 g 0) nt).
Definition middle_design (nt : nat) (g : list R) : res (list R) :=
  Ok (map (fun t => if (t =? (nt - 1) / 2)%nat then nth 0 g 0 else 0) (seq 0 nt)).
Lemma middle_linear : linear_design middle_design.
Proof.
  exists (fun nt N j t => if ((j =? 0) && (t =? (nt - 1) / 2))%nat%bool then 1 else 0). intros nt g O L. split.
  - unfold middle_design. f_equal. apply map_ext_in. intros t T. rewrite (rsum_single _ 0%nat); [|lia|].
    + cbn [Nat.eqb andb]. destruct (t =? _)%nat; ring.
    + intros j J N. rewrite (proj2 (Nat.eqb_neq _ _) N). cbn [andb]. ring.
  - intros t T. rewrite (rsum_single _ 0%nat); [|lia|].
    + reflexivity.
    + intros j J N. rewrite (proj2 (Nat.eqb_neq _ _) N). reflexivity.
Qed.

Lemma weighted_half n (g c : nat -> R) : (forall b, (b < n)%nat -> 0 <= g b /\ 1 / 2 <= c b) -> rsum n g = 1 -> 1 / 2 <= rsum n (fun b => g b * c b).
Proof.
  intros P E. replace (1 / 2) with (rsum n (fun b => 1 / 2 * g b)) by (rewrite rsum_scal, E; lra).
  apply rsum_le. intros b B. destruct (P b B). nra.
Qed.
Lemma centred_delta w c u0 v : centred w (fun u => if (u =? u0)%Z then c else 0) v =
  let t := (v + Z.of_nat ((length w - 1) / 2) - u0)%Z in
  if (0 <=? t)%Z && (t <? Z.of_nat (length w))%Z then nth (Z.to_nat t) w 0 * c else 0.
Proof.
  unfold centred. cbv zeta. set (m := ((length w - 1) / 2)%nat). set (t := (v + Z.of_nat m - u0)%Z).
  destruct (Z.leb_spec 0 t) as [A|A]; cbn [andb]; [destruct (Z.ltb_spec t (Z.of_nat (length w))) as [C|C]|].
  - rewrite (rsum_single _ (Z.to_nat t)); [|lia|].
    + rewrite (proj2 (Z.eqb_eq _ _)) by lia. reflexivity.
    + intros j J N. rewrite (proj2 (Z.eqb_neq _ _)) by lia. ring.
  - apply rsum_0. intros j J. rewrite (proj2 (Z.eqb_neq _ _)) by lia. ring.
  - apply rsum_0. intros j J. rewrite (proj2 (Z.eqb_neq _ _)) by lia. ring.
Qed.

Lemma impulse_out fs soft u0 a bs irs : (32000 <= fs <= 1000000)%Z -> (forall b, (b < 10)%nat -> band_size fs b (bs b)) ->
  exists c, (forall b, (b < 10)%nat -> 1 / 2 <= c b <= 1) /\ forall v,
  eq_out irs 10 bs soft (bs 0%nat) (u0 + 1) 1 (fun l => / Rpower (nth l [1] 0) a) (impulse u0)
    (fun l => map (ent (impulse_mat u0) l) (seq 0 (u0 + 1))) 0 v =
  rsum 10 (fun b => let t := (v + Z.of_nat ((length (irs b) - 1) / 2) - Z.of_nat u0)%Z in
    if (0 <=? t)%Z && (t <? Z.of_nat (length (irs b)))%Z then nth (Z.to_nat t) (irs b) 0 * c b else 0).
Proof.
  intros Hf Hb. set (att := fun l : nat => _). assert (att 0%nat = 1) as A0 by (unfold att; cbn [nth]; unfold Rpower; rewrite ln_1, Rmult_0_r, exp_0, Rinv_1; reflexivity).
  exists (fun b => eq_band b soft (bs b) (bs 0%nat) (u0 + 1) 1 att (impulse u0) (fun _ => impulse u0) 0 (Z.of_nat u0)).
  assert (forall b, (b < 10)%nat -> let c := eq_band b soft (bs b) (bs 0%nat) (u0 + 1) 1 att (impulse u0) (fun _ => impulse u0) 0 (Z.of_nat u0) in
    1 / 2 <= c <= 1 /\ forall v, eq_band b soft (bs b) (bs 0%nat) (u0 + 1) 1 att (impulse u0) (fun _ => impulse u0) 0 v = if (v =? Z.of_nat u0)%Z then c else 0) as Q.
  { intros b B. cbv zeta. destruct (sizes_even fs bs ltac:(lia) Hb b B) as (h & H1 & H2 & H3). rewrite H2.
    destruct (impulse_band b soft h (bs 0%nat) u0 att H1 H3 A0 0) as (c & C1 & C2). rewrite !C2, Z.eqb_refl. split; [exact C1|exact C2]. }
  split; [intros b B; apply (Q b B)|]. intros v. unfold eq_out. apply rsum_ext. intros b B. destruct (Q b B) as [_ Q2].
  rewrite <- centred_delta. unfold centred. apply rsum_ext. intros t T. f_equal. rewrite <- Q2. unfold eq_band. apply rsum_ext. intros i I. unfold eq_piece.
  destruct (_ <? _)%Z; [|reflexivity]. rewrite impulse_row. unfold zero_phase. apply rsum_ext. intros j J. f_equal. unfold kernel. f_equal. apply rsum_ext. intros k K. f_equal.
  unfold eq_gain. cbv zeta. do 3 f_equal; [unfold together|unfold in_power; f_equal]; apply rsum_ext; intros l L; rewrite impulse_row; reflexivity.
Qed.

Lemma odd_half pad : (pad mod 4 = 0)%nat -> (4 <= pad)%nat -> exists q, (1 <= q)%nat /\ pad = (4 * q)%nat /\ (pad / 2 - 1 = 2 * q - 1)%nat /\ ((pad / 2 - 1 - 1) / 2 = q - 1)%nat.
Proof.
  intros M G. apply Nat.mod_divides in M; [|lia]. destruct M as [q ->]. exists q. split; [lia|]. split; [reflexivity|].
  replace (4 * q)%nat with (2 * q * 2)%nat by lia. rewrite Nat.div_mul by lia. split; [reflexivity|].
  replace (2 * q - 1 - 1)%nat with ((q - 1) * 2)%nat by lia. apply Nat.div_mul. lia.
Qed.

Definition bs48 : nat -> nat := size_of 48000.
Lemma bs48_ok b : band_size 48000 b (bs48 b).
Proof. apply size_of_ok. lia. Qed.
Lemma bs48_large : (8 <= bs48 0)%nat.
Proof.
  pose proof freq0 as [F1 F2]. destruct (size_bounds 48000 0 (bs48 0%nat) ltac:(lia) ltac:(lra) (bs48_ok 0)) as [[X _] _].
  set (y := 7 * 48000 / band_freq 0) in *. assert (y * band_freq 0 = 7 * 48000) as E by (unfold y; field; lra).
  assert (9 <= y) by nra. apply INR_le. replace (INR 8) with 8 by (cbn; lra). lra.
Qed.

(** the end is cut although samples there are loud, and no warning is given *)
Lemma tail_unnoticed : exists firwin2 ls p d fuel0,
  (forall nt g, Nat.odd nt = true -> (2 <= length g)%nat -> exists h, firwin2 nt g = Ok h /\ length h = nt) /\
  forall fuel, (fuel0 <= fuel)%nat -> exists gs ff out irs,
    frac_octave_filterbank fuel 1 (2 ^ 16) 48000 (625 / 10) (Some 16000) Amplitude (5 / 10) 3 = Ok (gs, ff) /\
    (forall b, (b < 10)%nat -> firwin2 (bs48 0 / 2 - 1)%nat (nth b gs []) = Ok (irs b)) /\
    sdm_post_equalization firwin2 fuel ls p 48000 d 1 true = Ok (Some (out, false)) /\
    1 / 2 <= eq_out irs 10 bs48 true (bs48 0%nat) (nc ls) (nr ls) (fun l => / Rpower (nth l d 0) 1) p
               (fun l => map (ent ls l) (seq 0 (nc ls))) 0 (Z.of_nat (nc ls)).
Proof.
  set (u0 := bs48 0%nat). exists flat_design, (impulse_mat u0), (impulse u0), [1].
  destruct (post_eq_final flat_design (impulse_mat u0) (impulse u0) 48000 [1] 1 true bs48) as (gs & irs & fuel0 & Lg & Lr & Sg & Hi & Hout).
  - lia.
  - intros b _. apply bs48_ok.
  - apply size_48k.
  - intros nt g _ _. eexists. split; [reflexivity|apply repeat_length].
  - apply length_impulse.
  - reflexivity.
  - intros l L. cbn in L. destruct l; [cbn; lra|lia].
  - exists fuel0. split; [intros nt g _ _; eexists; split; [reflexivity|apply repeat_length]|].
    intros fuel Hfu. destruct (Hout fuel Hfu) as ((ff & E0) & out & warned & E & A1 & A2 & A3). cbv zeta in A3. destruct A3 as [_ A4].
    exists gs, ff, out, irs. split; [exact E0|]. split; [intros b B; apply Hi; exact B|].
    change (nc (impulse_mat u0)) with (u0 + 1)%nat in *. change (nr (impulse_mat u0)) with 1%nat in *.
    destruct (impulse_out 48000 true u0 1 bs48 irs ltac:(lia) ltac:(intros; apply bs48_ok)) as (c & C1 & C2).
    destruct (odd_half (bs48 0%nat) size_48k ltac:(pose proof bs48_large; lia)) as (q & Q1 & Q2 & Q3 & Q4).
    assert (2 <= q)%nat as Q5 by (pose proof bs48_large; lia).
    split.
    + destruct warned; [|exact E]. exfalso. destruct (proj1 A4 eq_refl) as (l & v & L & V & N). destruct l; [|lia]. rewrite C2 in N.
      rewrite rsum_0 in N.
      * rewrite Rabs_R0 in N. assert (0 < 1 / 10 ^ 4) by (apply Rdiv_lt_0_compat; [lra|apply pow_lt; lra]). lra.
      * intros b B. cbv zeta. destruct (Hi b B) as [_ Li]. rewrite Li, Q4, Q3.
        destruct (Z.leb_spec 0 (v + Z.of_nat (q - 1) - Z.of_nat u0)); [unfold u0 in *; lia|]. reflexivity.
    + rewrite C2. rewrite (rsum_ext 10 _ (fun b => nth 0 (nth b gs []) 0 * c b)).
      * apply weighted_half; [|apply Sg; apply Nat.neq_0_lt_0, Nat.pow_nonzero; lia].
        intros b B. split; [|apply C1; exact B]. apply Sg; [apply Nat.neq_0_lt_0, Nat.pow_nonzero; lia|exact B].
      * intros b B. cbv zeta. destruct (Hi b B) as [Fi Li]. rewrite Li, Q4, Q3.
        replace (Z.of_nat (u0 + 1) + Z.of_nat (q - 1) - Z.of_nat u0)%Z with (Z.of_nat q) by lia.
        destruct (Z.leb_spec 0 (Z.of_nat q)); [|lia]. destruct (Z.ltb_spec (Z.of_nat q) (Z.of_nat (2 * q - 1))); [|lia]. cbn [andb].
        rewrite Nat2Z.id. assert (irs b = repeat (nth 0 (nth b gs []) 0) (bs48 0 / 2 - 1)%nat) as -> by (unfold flat_design in Fi; congruence). rewrite Q3, nth_repeat_in by lia. reflexivity.
Qed.

(** nothing lies outside the part that is kept, and the warning is given *)
Lemma false_alarm : exists firwin2 ls p d fuel0, linear_design firwin2 /\
  forall fuel, (fuel0 <= fuel)%nat -> exists gs ff out irs,
    frac_octave_filterbank fuel 1 (2 ^ 16) 48000 (625 / 10) (Some 16000) Amplitude (5 / 10) 3 = Ok (gs, ff) /\
    (forall b, (b < 10)%nat -> firwin2 (bs48 0 / 2 - 1)%nat (nth b gs []) = Ok (irs b)) /\
    sdm_post_equalization firwin2 fuel ls p 48000 d 1 true = Ok (Some (out, true)) /\
    forall l v, (l < nr ls)%nat -> (v < 0 \/ Z.of_nat (nc ls) <= v)%Z ->
      eq_out irs 10 bs48 true (bs48 0%nat) (nc ls) (nr ls) (fun l => / Rpower (nth l d 0) 1) p
        (fun l => map (ent ls l) (seq 0 (nc ls))) l v = 0.
Proof.
  exists middle_design, (impulse_mat 0), (impulse 0), [1].
  destruct (post_eq_final middle_design (impulse_mat 0) (impulse 0) 48000 [1] 1 true bs48) as (gs & irs & fuel0 & Lg & Lr & Sg & Hi & Hout).
  - lia.
  - intros b _. apply bs48_ok.
  - apply size_48k.
  - apply design_total. apply middle_linear.
  - apply length_impulse.
  - reflexivity.
  - intros l L. cbn in L. destruct l; [cbn; lra|lia].
  - exists fuel0. split; [apply middle_linear|].
    intros fuel Hfu. destruct (Hout fuel Hfu) as ((ff & E0) & out & warned & E & A1 & A2 & A3). cbv zeta in A3. destruct A3 as [_ A4].
    exists gs, ff, out, irs. split; [exact E0|]. split; [intros b B; apply Hi; exact B|].
    change (nc (impulse_mat 0)) with (0 + 1)%nat in *. change (nr (impulse_mat 0)) with 1%nat in *.
    destruct (impulse_out 48000 true 0 1 bs48 irs ltac:(lia) ltac:(intros; apply bs48_ok)) as (c & C1 & C2).
    destruct (odd_half (bs48 0%nat) size_48k ltac:(pose proof bs48_large; lia)) as (q & Q1 & Q2 & Q3 & Q4).
    assert (2 <= q)%nat as Q5 by (pose proof bs48_large; lia).
    assert (forall b t, (b < 10)%nat -> (t < 2 * q - 1)%nat -> nth t (irs b) 0 = if (t =? q - 1)%nat then nth 0 (nth b gs []) 0 else 0) as Ni.
    { intros b t B T. destruct (Hi b B) as [Fi _]. assert (irs b = map (fun t => if (t =? (bs48 0 / 2 - 1 - 1) / 2)%nat then nth 0 (nth b gs []) 0 else 0) (seq 0 (bs48 0 / 2 - 1)%nat)) as ->
        by (unfold middle_design in Fi; congruence).
      rewrite Q4, Q3, nth_map_seq by lia. reflexivity. }
    split.
    + destruct warned; [exact E|]. exfalso. assert (false = true); [|discriminate]. apply A4. exists 0%nat, 0%Z. split; [lia|]. split; [lia|].
      rewrite C2. rewrite (rsum_ext 10 _ (fun b => nth 0 (nth b gs []) 0 * c b)).
      * assert (1 / 2 <= rsum 10 (fun b => nth 0 (nth b gs []) 0 * c b)) as W.
        { apply weighted_half; [|apply Sg; apply Nat.neq_0_lt_0, Nat.pow_nonzero; lia].
          intros b B. split; [|apply C1; exact B]. apply Sg; [apply Nat.neq_0_lt_0, Nat.pow_nonzero; lia|exact B]. }
        rewrite Rabs_right by lra. assert (1 / 10 ^ 4 < 1 / 2); [|lra]. cbn. lra.
      * intros b B. cbv zeta. destruct (Hi b B) as [Fi Li]. rewrite Li, Q4, Q3.
        replace (0 + Z.of_nat (q - 1) - Z.of_nat 0)%Z with (Z.of_nat (q - 1)) by lia.
        destruct (Z.leb_spec 0 (Z.of_nat (q - 1))); [|lia]. destruct (Z.ltb_spec (Z.of_nat (q - 1)) (Z.of_nat (2 * q - 1))); [|lia]. cbn [andb].
        rewrite Nat2Z.id, Ni by lia. rewrite Nat.eqb_refl. reflexivity.
    + intros l v L V. destruct l; [|lia]. rewrite C2. apply rsum_0. intros b B. cbv zeta. destruct (Hi b B) as [_ Li]. rewrite Li, Q4, Q3.
      destruct (_ && _) eqn:T; [|reflexivity]. apply andb_true_iff in T. destruct T as [T1 T2]. apply Z.leb_le in T1. apply Z.ltb_lt in T2.
      rewrite Ni by lia. rewrite (proj2 (Nat.eqb_neq _ _)) by lia. ring.
Qed.
