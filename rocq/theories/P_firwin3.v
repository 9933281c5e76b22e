(** The post equalizers with firwin2. *)
From Verif Require Import Base BaseFacts M_utils M_sig M_process M_sph M_parsa3 M_decoder4 M_firwin S_process S_parsa2 S_parsa3 S_firwin
  P_proc4 P_parsa12 P_parsa13 P_parsa14 P_parsa18 P_parsa19 P_firwin P_proc2 P_fbank P_firwin2.
Require Import Lra Lia.
Open Scope R_scope.

Section Second.
Variables (fs : Z) (bs : nat) (k P : nat -> nat) (gs : list (list R)) (ff : list (R * R * R)) (irs : nat -> list R) (fuel0 : nat).
Hypotheses (Hf : (32000 <= fs)%Z) (Ht : transitions (bs / 2 + 1) (IZR fs) 1 (625 / 10) (5 / 10) 9 k P) (Hs : separated (bs / 2 + 1) 9 k P)
  (Hb : Nat.even bs = true) (Hb2 : (2 <= bs)%nat)
  (Hg : forall fuel, (fuel0 <= fuel)%nat -> exists ff, frac_octave_filterbank fuel 1 (bs / 2 + 1) fs (625 / 10) (Some 16000) Energy (5 / 10) 3 = Ok (gs, ff))
  (Hi : forall b, (b < 10)%nat -> firwin2 (bs + 1) (nth b gs []) = Ok (irs b)).
Lemma second_gains : length gs = 10%nat /\ forall b, (b < 10)%nat -> length (nth b gs []) = (bs / 2 + 1)%nat /\
  forall j, (j < bs / 2 + 1)%nat -> nth j (nth b gs []) 0 = band_gain 3 9 k P b j.
Proof.
  destruct (filterbank_gains 1 (bs / 2 + 1) fs (625 / 10) (Some 16000) Energy (5 / 10) 3 9 k P) as (f1 & Q); auto; try lra; try lia.
  - apply nine_bands. lia.
  - discriminate.
  - destruct (Hg (fuel0 + f1)%nat ltac:(lia)) as (ff' & E). destruct (Q (fuel0 + f1)%nat gs ff' ltac:(lia) E) as (L & _ & V). split; [exact L|]. intros b B. destruct (V b B) as (_ & V'). exact V'.
Qed.
Lemma second_squares j : (j < bs / 2 + 1)%nat -> rsum 10 (fun b => Rsqr (nth j (nth b gs []) 0)) = 1.
Proof.
  intros J. destruct (bank2 (Mat 0 0 (fun _ _ => 0)) [] fs bs k P Hf Ht Hs eq_refl) as (f1 & g & E & _ & _ & V). destruct (Hg (fuel0 + f1)%nat ltac:(lia)) as (ff' & E').
  rewrite E in E' by lia. injection E' as -> _. rewrite <- (proj2 (V j J)). apply rsum_ext. intros b _. unfold Rsqr. ring.
Qed.
Lemma P_le_k i : (i < 9)%nat -> (P i <= k i)%nat.
Proof. intros I. apply (transitions_P_le_k (bs / 2 + 1) (IZR fs) 1 (625 / 10) (5 / 10) 9 k P); auto; try lra; try lia. apply IZR_lt. lia. Qed.
Lemma odd_taps : Nat.odd (bs + 1) = true.
Proof. rewrite Nat.add_1_r, Nat.odd_succ. exact Hb. Qed.
Lemma two_bins : (2 <= bs / 2 + 1)%nat.
Proof. pose proof (Nat.div_le_lower_bound bs 2 1 ltac:(lia) ltac:(lia)). lia. Qed.
Lemma second_loss : (1 <= k 8)%nat -> rsum 10 (fun b => energy (irs b)) < 1.
Proof.
  intros K. destruct second_gains as (_ & V). pose proof two_bins as T2.
  assert (f0 : nth 0 (nth 9 gs []) 0 = 0).
  { rewrite (proj2 (V 9%nat ltac:(lia))) by lia. unfold band_gain. cbn [Nat.ltb Nat.leb]. rewrite crossfade_low; [rewrite sin_0; ring|apply P_le_k; lia|exact K|lia|lia]. }
  assert (f1 : nth (bs / 2) (nth 9 gs []) 0 = 1).
  { rewrite (proj2 (V 9%nat ltac:(lia))) by lia. unfold band_gain. cbn [Nat.ltb Nat.leb]. rewrite crossfade_above; [rewrite sin_PI2; ring|].
    pose proof (proj2 Hs 8%nat ltac:(lia)). lia. }
  destruct (change_step (fun j => nth j (nth 9 gs []) 0) (bs / 2)) as (j & J & NE); [rewrite f0, f1; lra|].
  assert (LE : (bs + 1 <= 2 ^ Nat.log2_up (bs + 1))%nat) by (destruct (log2_next (bs + 1) ltac:(lia)) as (e & _ & L & _); exact L).
  apply (power_lt 10 (bs + 1) (bs / 2 + 1) (fun b => nth b gs []) irs odd_taps T2) with (j := j) (b0 := 9%nat); try lia.
  - intros b B. apply V. exact B.
  - exact Hi.
  - apply second_squares.
  - pose proof (Nat.div_le_upper_bound bs 2 bs ltac:(lia) ltac:(lia)). lia.
  - exact NE.
Qed.
Lemma second_gain_le : rsum 10 (fun b => energy (irs b)) <= 1.
Proof.
  destruct second_gains as (_ & V).
  apply (power_le 10 (bs + 1) (bs / 2 + 1) (fun b => nth b gs []) irs odd_taps two_bins); [intros b B; apply V; exact B|exact Hi|apply second_squares].
Qed.
Lemma second_length b : (b < 10)%nat -> length (irs b) = (bs + 1)%nat.
Proof.
  intros B. destruct second_gains as (_ & V). pose proof two_bins.
  destruct (firwin2_total (bs + 1) (nth b gs []) odd_taps) as (h & E & L); [rewrite (proj1 (V b B)); lia|]. rewrite (Hi b B) in E. injection E as ->. exact L.
Qed.
Lemma second_not_complementary : (1 <= k 8)%nat -> ~ power_complementary 10 (bs + 1) irs.
Proof.
  intros K H. specialize (H 0%Z). cbn [Z.eqb] in H. pose proof (second_loss K) as L.
  assert (E : rsum 10 (fun b => energy (irs b)) = 1); [|lra]. rewrite <- H. apply rsum_ext. intros b B. unfold energy. rewrite second_length by exact B.
  apply rsum_ext. intros t T. rewrite (rsum_single _ t); [|exact T|].
  - rewrite Z.sub_diag. reflexivity.
  - intros r R1 NE. destruct (Z.eqb_spec (Z.of_nat t - Z.of_nat r) 0); [lia|reflexivity].
Qed.
End Second.
Lemma twice_impulse h f A u : (forall v, f v = if (v =? u)%Z then A else 0) -> twice h f u = A * energy h.
Proof.
  intros F. unfold twice, energy. rewrite <- rsum_scal. apply rsum_ext. intros t T. rewrite (rsum_single _ t); [|exact T|].
  - rewrite F. replace (u + Z.of_nat t - Z.of_nat t =? u)%Z with true by (symmetry; apply Z.eqb_eq; lia). unfold Rsqr. ring.
  - intros r R1 NE. rewrite F. destruct (Z.eqb_spec (u + Z.of_nat t - Z.of_nat r) u); [lia|ring].
Qed.

Section Both.
Variables (ls : mat) (p : list R) (fs : Z) (d : list R) (a : R) (bs : nat) (k P : nat -> nat) (order l0 : nat).
Hypotheses (Hf : (32000 <= fs)%Z) (Ht : transitions (bs / 2 + 1) (IZR fs) 1 (625 / 10) (5 / 10) 9 k P) (Hs : separated (bs / 2 + 1) 9 k P)
  (Hp : length p = nc ls) (Hb : Nat.even bs = true) (Hb2 : (2 <= bs)%nat) (Hd : length d = nr ls) (Hd0 : forall l, (l < nr ls)%nat -> 0 < nth l d 0)
  (Ho : (1 <= order)%nat) (Hl : (l0 < nr ls)%nat) (Hx : forall u, (u < nc ls)%nat -> ent ls l0 u = Rpower (nth l0 d 0) a * nth u p 0)
  (Hz : forall l u, (l < nr ls)%nat -> l <> l0 -> ent ls l u = 0).
Lemma impulse_loss u0 : (1 <= k 8)%nat -> (u0 < nc ls)%nat -> nth u0 p 0 <> 0 -> (forall u, u <> u0 -> nth u p 0 = 0) ->
  exists fuel0, forall fuel, (fuel0 <= fuel)%nat ->
    exists out warned, sdm_post_equalization2 firwin2 fuel ls p fs d a bs (Z.of_nat order) =
        Ok (Some (out, repeat (repeat 1 10) (blocks bs bs (nc ls) - 4), warned)) /\
      0 <= ent out l0 u0 / ent ls l0 u0 < 1.
Proof.
  intros K U N0 Z0.
  destruct (post_eq2_identity firwin2 ls p fs d a bs k P order l0 Hf Ht Hs Hp Hb Hb2 firwin2_total Hd Hd0 Ho Hl Hx Hz) as (gs & irs & f0 & Hi & Q).
  assert (Hg : forall fuel, (f0 <= fuel)%nat -> exists ff, frac_octave_filterbank fuel 1 (bs / 2 + 1) fs (625 / 10) (Some 16000) Energy (5 / 10) 3 = Ok (gs, ff)) by (intros fuel F; apply Q; exact F).
  pose proof (second_loss fs bs k P gs irs f0 Hf Ht Hs Hb Hb2 Hg Hi K) as L.
  exists f0. intros fuel F. destruct (Q fuel F) as (_ & out & w & E & _ & _ & V & _). exists out, w. split; [exact E|].
  rewrite V by assumption. assert (PA : 0 < Rpower (nth l0 d 0) a) by apply exp_pos. assert (NE : ent ls l0 u0 <> 0) by (rewrite Hx by exact U; apply Rmult_integral_contrapositive_currified; lra).
  rewrite (rsum_ext 10 _ (fun b => ent ls l0 u0 * energy (irs b))).
  - rewrite rsum_scal. unfold Rdiv. rewrite (Rmult_comm (ent ls l0 u0)), Rmult_assoc, Rinv_r, Rmult_1_r by exact NE. split; [|exact L].
    apply rsum_nonneg. intros b _. unfold energy. apply rsum_nonneg. intros; apply Rle_0_sqr.
  - intros b B. apply twice_impulse. intros v. unfold sig_at. destruct (Z.leb_spec 0 v) as [A|A]; destruct (Z.eqb_spec v (Z.of_nat u0)) as [A'|A']; try lia; try reflexivity.
    + subst v. rewrite Nat2Z.id, nth_map_seq by exact U. reflexivity.
    + destruct (Nat.lt_ge_cases (Z.to_nat v) (nc ls)) as [C|C].
      * rewrite nth_map_seq by exact C. rewrite Hx by exact C. rewrite Z0 by lia. ring.
      * apply nth_overflow. rewrite map_length, seq_length. exact C.
Qed.
End Both.
