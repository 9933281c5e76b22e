(** Post equalisation of a source that stays in one place, and rendering with it. *)
From Verif Require Import Base BaseFacts M_utils M_sig M_process M_decoder M_decoder2 M_decoder3 M_parsa2 M_parsa3 M_render
  S_process S_decoder3 S_parsa2 S_parsa3 P_sig P_dec13 P_parsa8 P_parsa12 P_parsa13 P_parsa14 X_dec3 X_parsa2.
Open Scope R_scope.

Lemma zero_phase_scal n m w f v : zero_phase n m (fun _ => w) f v = w * zero_phase n m (fun _ => 1) f v.
Proof.
  unfold zero_phase. rewrite <- rsum_scal. apply rsum_ext. intros j J. unfold kernel. rewrite !rsum_scal. ring.
Qed.
(** every block gets the same gain *)
Lemma band_const b soft h pad S L att p x l v w : (1 <= h)%nat -> (2 * h <= pad)%nat -> length (x l) = S ->
  (forall i k, (i < blocks (2 * h) pad S)%nat -> (k < 2 * (2 * h) - 1)%nat ->
    magnitude (2 * (2 * h) - 1) (2 * h) (block (2 * h) (x l) (block_start (2 * h) pad i)) k = 0 \/
    eq_gain b soft (2 * h) L att p x (block_start (2 * h) pad i) k = w) ->
  eq_band b soft (2 * h) pad S L att p x l v = w * sig_at (x l) v.
Proof.
  intros H B LX HG. set (n := (2 * (2 * h) - 1)%nat) in *.
  assert (forall i, (i < blocks (2 * h) pad S)%nat -> eq_piece b soft (2 * h) L att p x l (block_start (2 * h) pad i) v =
    let j := (v - block_start (2 * h) pad i)%Z in if (0 <=? j)%Z && (j <? Z.of_nat (2 * h))%Z then w * (hann (2 * h + 1) (Z.to_nat j) * sig_at (x l) v) else 0) as P.
  { intros i I. unfold eq_piece. cbv zeta. set (s := block_start (2 * h) pad i) in *.
    destruct (Z.ltb_spec (Z.abs (v - s)) (Z.of_nat (2 * h))) as [Y|Y].
    - fold n. rewrite (zero_phase_bins n (2 * h) _ (fun _ => w)) by (unfold n; [lia|]||(intros k K; apply HG; assumption)||lia).
      rewrite zero_phase_scal, zero_phase_one by (unfold n; lia). destruct (Z.leb_spec 0 (v - s)); cbn [andb]; [|ring].
      destruct (Z.ltb_spec (v - s) (Z.of_nat (2 * h))); [|ring]. unfold block. do 3 f_equal. lia.
    - destruct (Z.leb_spec 0 (v - s)); cbn [andb]; [|reflexivity]. destruct (Z.ltb_spec (v - s) (Z.of_nat (2 * h))); [lia|reflexivity]. }
  unfold eq_band. rewrite (rsum_ext _ _ _ P).
  destruct (Z.lt_ge_cases v 0) as [V|V]; [|destruct (Z.lt_ge_cases v (Z.of_nat S)) as [V'|V']].
  - assert (sig_at (x l) v = 0) as E by (unfold sig_at; destruct (Z.leb_spec 0 v); [lia|reflexivity]). rewrite E.
    rewrite Rmult_0_r. apply rsum_0. intros i I. cbv zeta. destruct (_ && _); [ring|reflexivity].
  - transitivity (window_sum (2 * h) pad S v * (w * sig_at (x l) v)).
    + unfold window_sum. rewrite Rmult_comm, <- rsum_scal. apply rsum_ext. intros i I. cbv zeta. destruct (_ && _); ring.
    + rewrite windows_one by auto. ring.
  - assert (sig_at (x l) v = 0) as E.
    { unfold sig_at; destruct (Z.leb_spec 0 v); [|reflexivity]. apply nth_overflow. lia. }
    rewrite E. rewrite Rmult_0_r. apply rsum_0. intros i I. cbv zeta. destruct (_ && _); [ring|reflexivity].
Qed.

(** nonnegative gains of unit power add up to at least one *)
Lemma unit_power_sum L g : (forall l, (l < L)%nat -> 0 <= g l) -> rsum L (fun l => g l * g l) = 1 -> 1 <= rsum L g.
Proof.
  intros G U. assert (0 <= rsum L g) as S0 by (apply rsum_nonneg; exact G).
  assert (rsum L (fun l => g l * g l) <= rsum L g * rsum L g) as Q.
  { clear U S0. induction L as [|L IH]; cbn [rsum]; [lra|]. specialize (IH ltac:(intros; apply G; lia)).
    assert (0 <= rsum L g) by (apply rsum_nonneg; intros; apply G; lia). pose proof (G L ltac:(lia)). nra. }
  nra.
Qed.
Lemma share_range b : 0 <= share b <= 1.
Proof. destruct b as [|[|[|b]]]; cbn; lra. Qed.

(** the gain of a bin in which all loudspeakers play the same block *)
Lemma gain_static b soft bs L att p (x : nat -> list R) g s k : (forall l, (l < L)%nat -> 0 < att l /\ 0 <= g l) ->
  rsum L (fun l => g l * g l) = 1 ->
  (forall l, (l < L)%nat -> length (x l) = length p) -> (forall l u, (l < L)%nat -> (u < length p)%nat -> att l * nth u (x l) 0 = g l * nth u p 0) ->
  1 / 10 ^ 9 <= magnitude (2 * bs - 1) bs (block bs p s) k ->
  eq_gain b soft bs L att p x s k = / (share b * rsum L g + (1 - share b)).
Proof.
  intros Hg HU HL HP HM. set (n := (2 * bs - 1)%nat) in *.
  assert (forall l, (l < L)%nat -> att l * magnitude n bs (block bs (x l) s) k = g l * magnitude n bs (block bs p s) k) as M.
  { intros l H. destruct (Hg l H) as [A G].
    rewrite (magnitude_scal n bs (g l / att l) (block bs (x l) s) (block bs p s)).
    - rewrite Rabs_right by (apply Rle_ge, Rmult_le_pos; [exact G|left; apply Rinv_0_lt_compat; exact A]). field. lra.
    - intros j J. unfold block. rewrite (sig_at_scal (g l / att l) (x l) p); [ring|apply HL; exact H|].
      intros u U. rewrite HL in U by exact H. apply (Rmult_eq_reg_l (att l)); [|lra]. rewrite HP by assumption. field. lra. }
  unfold eq_gain. cbv zeta. fold n. set (m := magnitude n bs (block bs p s) k) in *.
  assert (0 < 1 / 10 ^ 9) as P by (apply Rdiv_lt_0_compat; [lra|apply pow_lt; lra]).
  pose proof (unit_power_sum L g ltac:(intros; apply Hg; assumption) HU) as S1. set (sg := rsum L g) in *.
  assert (together L att (fun l => magnitude n bs (block bs (x l) s) k) = sg * m) as T.
  { unfold together. rewrite (rsum_ext L _ (fun l => m * g l)) by (intros l H; rewrite M by exact H; ring). rewrite rsum_scal. unfold sg. ring. }
  assert (in_power L att (fun l => magnitude n bs (block bs (x l) s) k) = m) as I.
  { unfold in_power. rewrite (rsum_ext L _ (fun l => Rsqr m * (g l * g l))) by (intros l H; rewrite M by exact H; unfold Rsqr; ring).
    rewrite rsum_scal, HU, Rmult_1_r. apply sqrt_Rsqr. lra. }
  rewrite T, I. pose proof (share_range b) as SB.
  assert (m <= sg * m) as LE by nra.
  assert (forall y, 1 / 10 ^ 9 <= y -> at_least (1 / 10 ^ 9) y = y) as A by (intros y Y; unfold at_least; destruct (Rle_dec y (1 / 10 ^ 9)); lra).
  unfold reference. rewrite !A by lra.
  assert (1 <= share b * sg + (1 - share b)) as D by nra.
  replace (m / (share b * (sg * m) + (1 - share b) * m)) with (/ (share b * sg + (1 - share b))).
  2:{ replace (share b * (sg * m) + (1 - share b) * m) with ((share b * sg + (1 - share b)) * m) by ring. field. split; lra. }
  unfold limited. destruct soft; [|reflexivity]. destruct (Rle_dec _ 1) as [Y|Y]; [reflexivity|]. exfalso. apply Y.
  rewrite <- Rinv_1. apply Rinv_le_contravar; lra.
Qed.

(** the equalised loudspeaker signals of a source with fixed gains *)
Lemma post_eq_static firwin2 ls p fs d a soft bs g : (32000 <= fs <= 1000000)%Z -> (forall b, (b < 10)%nat -> band_size fs b (bs b)) ->
  (bs 0 mod 4 = 0)%nat -> linear_design firwin2 ->
  length p = nc ls -> length d = nr ls -> (forall l, (l < nr ls)%nat -> 0 < nth l d 0) ->
  (forall l, (l < nr ls)%nat -> 0 <= g l) -> rsum (nr ls) (fun l => g l * g l) = 1 ->
  (forall l u, (l < nr ls)%nat -> (u < nc ls)%nat -> ent ls l u = Rpower (nth l d 0) a * g l * nth u p 0) ->
  (forall b s k, (b < 10)%nat -> let m := magnitude (2 * bs b - 1) (bs b) (block (bs b) p s) k in m = 0 \/ 1 / 10 ^ 9 <= m) ->
  exists gs irs fuel0, length gs = 10%nat /\
    (forall b, (b < 10)%nat -> firwin2 (bs 0 / 2 - 1)%nat (nth b gs []) = Ok (irs b) /\ length (irs b) = (bs 0 / 2 - 1)%nat) /\
    forall fuel, (fuel0 <= fuel)%nat ->
    (exists ff, frac_octave_filterbank fuel 1 (2 ^ 16) fs (625 / 10) (Some 16000) Amplitude (5 / 10) 3 = Ok (gs, ff)) /\
    exists out warned, sdm_post_equalization firwin2 fuel ls p fs d a soft = Ok (Some (out, warned)) /\
      nr out = nr ls /\ nc out = nc ls /\ forall l u, (l < nr ls)%nat -> (u < nc ls)%nat ->
        ent out l u = Rpower (nth l d 0) a * g l * (nth u p 0 -
          rsum 3 (fun b => (1 - / (share b * rsum (nr ls) g + (1 - share b))) * centred (irs b) (sig_at p) (Z.of_nat u))).
Proof.
  intros Hf Hb H4 Hfw Hp Hd Hd0 Hg HU Hx Hm.
  destruct (post_eq_final firwin2 ls p fs d a soft bs Hf Hb H4 (design_total _ Hfw) Hp Hd Hd0) as (gs & irs & fuel0 & Lg & Lr & Sg & Hi & Hout).
  exists gs, irs, fuel0. split; [exact Lg|]. split; [exact Hi|]. intros fuel Hfu.
  destruct (Hout fuel Hfu) as (FF & out & warned & E & A1 & A2 & A3 & _). split; [exact FF|]. exists out, warned.
  split; [exact E|]. split; [exact A1|]. split; [exact A2|]. intros l u Hl' Hu. rewrite A3 by assumption.
  set (x := fun l => map (ent ls l) (seq 0 (nc ls))) in *. set (att := fun l => / Rpower (nth l d 0) a) in *.
  assert (forall l, 0 < Rpower (nth l d 0) a) as P0 by (intros; apply exp_pos).
  assert (forall l, length (x l) = nc ls) as Lx by (intros; unfold x; rewrite map_length, seq_length; reflexivity).
  assert (forall l u, (u < nc ls)%nat -> nth u (x l) 0 = ent ls l u) as Nx by (intros; unfold x; apply nth_map_seq; assumption).
  set (pad := bs 0%nat) in *.
  assert (Nat.odd (pad / 2 - 1) = true) as Od.
  { apply Nat.mod_divides in H4; [|lia]. destruct H4 as [q Q]. rewrite Q.
    assert (1 <= q)%nat. { destruct (sizes_even fs bs ltac:(lia) Hb 0%nat ltac:(lia)) as (h & X1 & X2 & X3). fold pad in X2, X3. lia. }
    replace (4 * q)%nat with ((2 * q) * 2)%nat by lia. rewrite Nat.div_mul by lia.
    apply Nat.odd_spec. exists (q - 1)%nat. lia. }
  assert (1 <= pad / 2 - 1)%nat as N1 by (destruct (pad / 2 - 1)%nat; [discriminate|lia]).
  set (c := Rpower (nth l d 0) a * g l).
  assert (forall v, sig_at (x l) v = c * sig_at p v) as Sx.
  { intros v. apply sig_at_scal; [rewrite Lx; auto|]. intros w W. rewrite Lx in W. rewrite Nx by exact W. apply Hx; assumption. }
  set (w := fun b => / (share b * rsum (nr ls) g + (1 - share b))).
  assert (eq_out irs 10 bs soft pad (nc ls) (nr ls) att p x l (Z.of_nat u) = rsum 10 (fun b => w b * (c * centred (irs b) (sig_at p) (Z.of_nat u)))) as Q.
  { unfold eq_out. apply rsum_ext. intros b B. unfold centred. rewrite <- !rsum_scal. apply rsum_ext. intros t T.
    destruct (sizes_even fs bs ltac:(lia) Hb b B) as (h & H1 & H2 & H3). specialize (Hm b). rewrite H2 in Hm |- *.
    rewrite (band_const b soft h pad (nc ls) (nr ls) att p x l _ (w b)); [rewrite Sx; ring|exact H1|exact H3|apply Lx|].
    intros i k I K. set (s := block_start (2 * h) pad i) in *. destruct (Hm s k B) as [M|M].
    - left. cbv zeta in M. rewrite (magnitude_scal _ _ c _ (block (2 * h) p s)); [rewrite M; ring|].
      intros j J. unfold block. rewrite Sx. ring.
    - right. apply gain_static; [|exact HU| | |exact M].
      + intros l' H'. split; [apply Rinv_0_lt_compat, P0|apply Hg; exact H'].
      + intros l' H'. rewrite Lx. auto.
      + intros l' v H' V. rewrite Hp in V. rewrite Nx by exact V. rewrite Hx by assumption. unfold att. field. pose proof (P0 l'). lra. }
  rewrite Q.
  assert (rsum 10 (fun b => centred (irs b) (sig_at p) (Z.of_nat u)) = nth u p 0) as C.
  { rewrite (centred_sum 10 (pad / 2 - 1) irs (sig_at p) (Z.of_nat u)); [|intros b B; apply Hi; exact B| |exact N1].
    - unfold sig_at. destruct (Z.leb_spec 0 (Z.of_nat u)); [|lia]. rewrite Nat2Z.id. reflexivity.
    - apply (design_complementary firwin2 gs (2 ^ 16) (pad / 2 - 1) irs 10 Hfw Od); [apply (Nat.pow_le_mono_r 2 1 16); lia| |intros j J; apply Sg; exact J].
      intros b B. split; [apply Lr; exact B|apply Hi; exact B]. }
  rewrite <- C. set (F := fun b => centred (irs b) (sig_at p) (Z.of_nat u)). change (fun b => w b * (c * centred (irs b) (sig_at p) (Z.of_nat u))) with (fun b => w b * (c * F b)).
  change (rsum 3 _) with (rsum 3 (fun b => (1 - w b) * F b)).
  assert (forall b, w (3 + b)%nat = 1) as W3 by (intros b; unfold w; cbn; replace (0 * _ + (1 - 0)) with 1 by ring; apply Rinv_1).
  cbn [rsum]. rewrite (W3 0%nat), (W3 1%nat), (W3 2%nat), (W3 3%nat), (W3 4%nat), (W3 5%nat), (W3 6%nat) || idtac.
  pose proof (W3 0%nat). pose proof (W3 1%nat). pose proof (W3 2%nat). pose proof (W3 3%nat). pose proof (W3 4%nat). pose proof (W3 5%nat). pose proof (W3 6%nat).
  cbn [Nat.add] in *. repeat match goal with H : w _ = 1 |- _ => rewrite H; clear H end. unfold c. ring.
Qed.
