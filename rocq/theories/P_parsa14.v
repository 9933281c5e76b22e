(** Post equalization: identity, boost limit, sampling rates, the warning. *)
From Verif Require Import Base BaseFacts M_utils M_sig M_process M_decoder M_decoder3 M_parsa2 M_parsa3
  S_process S_decoder3 S_parsa2 S_parsa3 P_sig P_proc2 P_proc3 P_proc4 P_proc5 P_parsa8 P_parsa9 P_parsa10 P_parsa11 P_parsa12 P_parsa13.
Open Scope R_scope.

(** ** The boost *)
Lemma tanh_lt_1 y : tanh y < 1.
Proof.
  unfold tanh. pose proof (exp_pos y). pose proof (exp_pos (- y)). unfold sinh, cosh.
  apply (Rmult_lt_reg_r ((exp y + exp (- y)) / 2)); [lra|]. unfold Rdiv at 1. rewrite Rmult_assoc, Rinv_l by lra. lra.
Qed.
Lemma magnitude_nonneg n m f k : 0 <= magnitude n m f k.
Proof. apply sqrt_pos. Qed.
Lemma at_least_pos x : 0 < at_least (1 / 10 ^ 9) x /\ x <= at_least (1 / 10 ^ 9) x.
Proof. unfold at_least. assert (0 < 1 / 10 ^ 9) by (apply Rdiv_lt_0_compat; [lra|apply pow_lt; lra]). destruct (Rle_dec x (1 / 10 ^ 9)); lra. Qed.
Lemma reference_pos b c i : 0 < reference b c i.
Proof.
  unfold reference. destruct (at_least_pos c) as [A _]. destruct (at_least_pos i) as [B _].
  destruct b as [|[|[|b]]]; cbn [share]; lra.
Qed.
Lemma boost_limited b bs L att p x s k : 0 <= eq_gain b true bs L att p x s k < 2.
Proof.
  unfold eq_gain. cbv zeta. set (m := magnitude _ _ _ _). set (r := reference _ _ _). assert (0 < r) by apply reference_pos.
  assert (0 <= m / r). { apply Rmult_le_pos; [apply magnitude_nonneg|left; apply Rinv_0_lt_compat; assumption]. }
  unfold limited. destruct (Rle_dec (m / r) 1) as [A|A]; [lra|]. pose proof (tanh_lt_1 (m / r - 1)).
  assert (0 <= tanh (m / r - 1)); [|lra]. unfold tanh. apply Rmult_le_pos.
  - unfold sinh. assert (exp (- (m / r - 1)) < exp (m / r - 1)) by (apply exp_increasing; lra). lra.
  - left. apply Rinv_0_lt_compat. unfold cosh. pose proof (exp_pos (m / r - 1)). pose proof (exp_pos (- (m / r - 1))). lra.
Qed.

(** ** A signal that already adds up to the pressure *)
Lemma sig_at_scal c x y v : length x = length y -> (forall u, (u < length x)%nat -> nth u x 0 = c * nth u y 0) -> sig_at x v = c * sig_at y v.
Proof.
  intros L H. unfold sig_at. destruct (0 <=? v)%Z; [|ring]. destruct (Nat.lt_ge_cases (Z.to_nat v) (length x)) as [A|A]; [apply H; exact A|].
  rewrite !nth_overflow by lia. ring.
Qed.
Lemma magnitude_scal n m c f g k : (forall j, (j < m)%nat -> f j = c * g j) -> magnitude n m f k = Rabs c * magnitude n m g k.
Proof.
  intros H. unfold magnitude.
  rewrite (rsum_ext m (fun j => f j * cos _) (fun j => c * (g j * cos (2 * PI * INR (j * k) / INR n)))) by (intros j J; rewrite H by exact J; ring).
  rewrite (rsum_ext m (fun j => f j * sin _) (fun j => c * (g j * sin (2 * PI * INR (j * k) / INR n)))) by (intros j J; rewrite H by exact J; ring).
  rewrite !rsum_scal, !Rsqr_mult, <- Rmult_plus_distr_l, sqrt_mult_alt by apply Rle_0_sqr. rewrite sqrt_Rsqr_abs. reflexivity.
Qed.
Lemma rsum_one L l0 f : (l0 < L)%nat -> (forall l, (l < L)%nat -> l <> l0 -> f l = 0) -> rsum L f = f l0.
Proof. intros H Z. apply rsum_single; assumption. Qed.

Lemma gain_one b soft bs L att p (x : nat -> list R) l0 s k : (l0 < L)%nat -> 0 < att l0 ->
  length (x l0) = length p -> (forall u, (u < length p)%nat -> att l0 * nth u (x l0) 0 = nth u p 0) ->
  (forall l, (l < L)%nat -> l <> l0 -> forall u, nth u (x l) 0 = 0) ->
  1 / 10 ^ 9 <= magnitude (2 * bs - 1) bs (block bs p s) k ->
  eq_gain b soft bs L att p x s k = 1.
Proof.
  intros Hl Ha HL HP HZ HM. set (n := (2 * bs - 1)%nat) in *.
  assert (magnitude n bs (block bs p s) k = att l0 * magnitude n bs (block bs (x l0) s) k) as M0.
  { rewrite (magnitude_scal n bs (att l0) (block bs p s) (block bs (x l0) s)).
    - rewrite Rabs_right by lra. reflexivity.
    - intros j J. unfold block. rewrite (sig_at_scal (att l0) p (x l0)) by (auto; intros; symmetry; apply HP; assumption). ring. }
  assert (forall l, (l < L)%nat -> l <> l0 -> magnitude n bs (block bs (x l) s) k = 0) as MZ.
  { intros l H N. rewrite (magnitude_scal n bs 0 _ (fun _ => 0)); [rewrite Rabs_R0; ring|].
    intros j J. unfold block, sig_at. destruct (0 <=? _)%Z; [rewrite (HZ l H N)|]; ring. }
  unfold eq_gain. cbv zeta. fold n. set (m := magnitude n bs (block bs p s) k) in *.
  assert (together L att (fun l => magnitude n bs (block bs (x l) s) k) = m) as T.
  { unfold together. rewrite (rsum_one L l0); [symmetry; exact M0|exact Hl|]. intros l H N. rewrite MZ by assumption. ring. }
  assert (in_power L att (fun l => magnitude n bs (block bs (x l) s) k) = m) as I.
  { unfold in_power. rewrite (rsum_one L l0); [|exact Hl|].
    - rewrite <- M0. apply sqrt_Rsqr. apply magnitude_nonneg.
    - intros l H N. rewrite MZ by assumption. unfold Rsqr. ring. }
  rewrite T, I. assert (0 < 1 / 10 ^ 9) as P by (apply Rdiv_lt_0_compat; [lra|apply pow_lt; lra]).
  assert (at_least (1 / 10 ^ 9) m = m) as A by (unfold at_least; destruct (Rle_dec m (1 / 10 ^ 9)); lra).
  replace (reference b m m) with m by (unfold reference; rewrite A; ring).
  unfold Rdiv. rewrite Rinv_r by lra. unfold limited. destruct soft; [|reflexivity]. destruct (Rle_dec 1 1); lra.
Qed.

Lemma centred_sum nb nt (irs : nat -> list R) f u : (forall b, (b < nb)%nat -> length (irs b) = nt) ->
  (forall t, (t < nt)%nat -> rsum nb (fun b => nth t (irs b) 0) = if (t =? (nt - 1) / 2)%nat then 1 else 0) -> (1 <= nt)%nat ->
  rsum nb (fun b => centred (irs b) f u) = f u.
Proof.
  intros HL HC HN. set (c := ((nt - 1) / 2)%nat) in *. assert (c < nt)%nat as C by (unfold c; apply Nat.div_lt_upper_bound; lia).
  transitivity (rsum nb (fun b => rsum nt (fun t => nth t (irs b) 0 * f (u + Z.of_nat c - Z.of_nat t)%Z))).
  { apply rsum_ext. intros b B. unfold centred. rewrite HL by exact B. reflexivity. }
  rewrite rsum_swap. transitivity (rsum nt (fun t => (if (t =? c)%nat then 1 else 0) * f (u + Z.of_nat c - Z.of_nat t)%Z)).
  { apply rsum_ext. intros t T. rewrite <- HC by exact T. rewrite Rmult_comm, <- rsum_scal. apply rsum_ext. intros b B. ring. }
  rewrite (rsum_single _ c); [|exact C|].
  - rewrite Nat.eqb_refl, Rmult_1_l. f_equal. lia.
  - intros t T N. rewrite (proj2 (Nat.eqb_neq _ _) N). ring.
Qed.
Lemma design_total fw : linear_design fw -> forall nt g, Nat.odd nt = true -> (2 <= length g)%nat -> exists h, fw nt g = Ok h /\ length h = nt.
Proof.
  intros (D & H) nt g O L. destruct (H nt g O L) as [E _]. eexists. split; [exact E|]. rewrite map_length, seq_length. reflexivity.
Qed.
Lemma design_complementary fw (gs : list (list R)) N nt (irs : nat -> list R) nb : linear_design fw -> Nat.odd nt = true -> (2 <= N)%nat ->
  (forall b, (b < nb)%nat -> length (nth b gs []) = N /\ fw nt (nth b gs []) = Ok (irs b)) ->
  (forall j, (j < N)%nat -> rsum nb (fun b => nth j (nth b gs []) 0) = 1) ->
  forall t, (t < nt)%nat -> rsum nb (fun b => nth t (irs b) 0) = if (t =? (nt - 1) / 2)%nat then 1 else 0.
Proof.
  intros (D & H) O HN HB HS t T.
  transitivity (rsum nb (fun b => rsum N (fun j => nth j (nth b gs []) 0 * D nt N j t))).
  - apply rsum_ext. intros b B. destruct (HB b B) as [L E]. destruct (H nt (nth b gs []) O ltac:(lia)) as [E' _].
    rewrite E in E'. injection E' as ->. rewrite nth_map_seq by exact T. rewrite L. reflexivity.
  - rewrite rsum_swap.
    destruct (H nt (repeat 0 N) O ltac:(rewrite repeat_length; exact HN)) as [_ U]. rewrite repeat_length in U. rewrite <- U by exact T.
    apply rsum_ext. intros j J. transitivity (D nt N j t * rsum nb (fun b => nth j (nth b gs []) 0)).
    + rewrite <- rsum_scal. apply rsum_ext. intros b B. ring.
    + rewrite HS by exact J. ring.
Qed.

Lemma post_eq_identity firwin2 ls p fs d a soft bs l0 : (32000 <= fs <= 1000000)%Z -> (forall b, (b < 10)%nat -> band_size fs b (bs b)) ->
  (bs 0 mod 4 = 0)%nat -> linear_design firwin2 ->
  length p = nc ls -> length d = nr ls -> (forall l, (l < nr ls)%nat -> 0 < nth l d 0) ->
  (l0 < nr ls)%nat -> (forall u, (u < nc ls)%nat -> ent ls l0 u = Rpower (nth l0 d 0) a * nth u p 0) ->
  (forall l u, (l < nr ls)%nat -> l <> l0 -> ent ls l u = 0) ->
  (forall b s k, (b < 10)%nat -> let m := magnitude (2 * bs b - 1) (bs b) (block (bs b) p s) k in m = 0 \/ 1 / 10 ^ 9 <= m) ->
  exists fuel0, forall fuel, (fuel0 <= fuel)%nat ->
    exists out warned, sdm_post_equalization firwin2 fuel ls p fs d a soft = Ok (Some (out, warned)) /\
      nr out = nr ls /\ nc out = nc ls /\ forall l u, (l < nr ls)%nat -> (u < nc ls)%nat -> ent out l u = ent ls l u.
Proof.
  intros Hf Hb H4 Hfw Hp Hd Hd0 Hl Hx Hz Hm.
  destruct (post_eq_final firwin2 ls p fs d a soft bs Hf Hb H4 (design_total _ Hfw) Hp Hd Hd0) as (gs & irs & fuel0 & Lg & Lr & Sg & Hi & Hout).
  destruct (sizes_order fs (bs 0%nat) 0 (bs 1%nat) ltac:(lia)) as (_ & _ & E2 & G); [apply Hb; lia|lia|apply Hb; lia|].
  exists fuel0. intros fuel Hfu. destruct (Hout fuel Hfu) as (_ & out & warned & E & A1 & A2 & A3 & _). exists out, warned.
  split; [exact E|]. split; [exact A1|]. split; [exact A2|]. intros l u Hl' Hu. rewrite A3 by assumption.
  set (x := fun l => map (ent ls l) (seq 0 (nc ls))) in *. set (att := fun l => / Rpower (nth l d 0) a) in *.
  assert (0 < Rpower (nth l0 d 0) a) as P0 by apply exp_pos.
  assert (forall l, length (x l) = nc ls) as Lx by (intros; unfold x; rewrite map_length, seq_length; reflexivity).
  assert (forall l u, (u < nc ls)%nat -> nth u (x l) 0 = ent ls l u) as Nx by (intros; unfold x; apply nth_map_seq; assumption).
  set (pad := bs 0%nat) in *.
  assert (Nat.odd (pad / 2 - 1) = true) as Od.
  { apply Nat.mod_divides in H4; [|lia]. destruct H4 as [q Q]. rewrite Q. replace (4 * q)%nat with ((2 * q) * 2)%nat by lia. rewrite Nat.div_mul by lia.
    apply Nat.odd_spec. exists (q - 1)%nat. lia. }
  assert (1 <= pad / 2 - 1)%nat as N1 by (destruct (pad / 2 - 1)%nat; [discriminate|lia]).
  transitivity (sig_at (x l) (Z.of_nat u)); [|unfold sig_at; destruct (Z.leb_spec 0 (Z.of_nat u)); [|lia]; rewrite Nat2Z.id; apply Nx; exact Hu].
  rewrite <- (centred_sum 10 (pad / 2 - 1) irs (sig_at (x l)) (Z.of_nat u)).
  - unfold eq_out. apply rsum_ext. intros b B. unfold centred. apply rsum_ext. intros t T. f_equal.
    destruct (sizes_even fs bs ltac:(lia) Hb b B) as (h & H1 & H2 & H3). specialize (Hm b). rewrite H2 in Hm |- *.
    apply band_identity; [exact H1|exact H3|apply Lx|]. intros i k I K. set (s := block_start (2 * h) pad i) in *.
    destruct (Hm s k B) as [M|M].
    + left. cbv zeta in M. destruct (Nat.eq_dec l l0) as [->|Ne].
      * rewrite (magnitude_scal _ _ (Rpower (nth l0 d 0) a) _ (block (2 * h) p s)); [rewrite M; ring|].
        intros j J. unfold block. rewrite (sig_at_scal (Rpower (nth l0 d 0) a) (x l0) p); [ring|rewrite Lx; auto|].
        intros w W. rewrite Lx in W. rewrite Nx by exact W. apply Hx. exact W.
      * rewrite (magnitude_scal _ _ 0 _ (fun _ => 0)); [rewrite Rabs_R0; ring|]. intros j J. unfold block.
        assert (sig_at (x l) (s + Z.of_nat j) = 0) as Q; [|rewrite Q; ring]. unfold sig_at. destruct (0 <=? _)%Z; [|reflexivity].
        set (w := Z.to_nat _). destruct (Nat.lt_ge_cases w (nc ls)) as [Y|Y]; [rewrite Nx by exact Y; apply Hz; assumption|apply nth_overflow; rewrite Lx; exact Y].
    + right. apply (gain_one b soft (2 * h) (nr ls) att p x l0 s k Hl).
      * unfold att. apply Rinv_0_lt_compat, exp_pos.
      * rewrite Lx. auto.
      * intros w W. rewrite Hp in W. rewrite Nx by exact W. rewrite Hx by exact W. unfold att. field. lra.
      * intros l' H' N' w. destruct (Nat.lt_ge_cases w (nc ls)) as [Y|Y]; [rewrite Nx by exact Y; apply Hz; assumption|apply nth_overflow; rewrite Lx; exact Y].
      * exact M.
  - intros b B. apply Hi. exact B.
  - apply (design_complementary firwin2 gs (2 ^ 16) (pad / 2 - 1) irs 10 Hfw Od); [apply (Nat.pow_le_mono_r 2 1 16); lia| |intros j J; apply Sg; exact J].
    intros b B. split; [apply Lr; exact B|apply Hi; exact B].
  - exact N1.
Qed.

(** ** Sampling rates *)
Definition size_of (fs : Z) (b : nat) : nat := Z.to_nat (band_blocksize fs (band_freq b)).
Lemma size_of_ok fs b : (0 < fs)%Z -> band_size fs b (size_of fs b).
Proof.
  intros Hf. assert (0 < band_freq b) as P by (destruct b; [pose proof freq0|pose proof (freq_ge b)]; lra).
  destruct (size_exists fs b) as (bs & H); [apply (IZR_le 0); lia|exact P|]. unfold size_of.
  rewrite (size_value fs b _ bs eq_refl H), Nat2Z.id. exact H.
Qed.
Lemma freq0_4 : band_freq 0 ^ 4 = 1953125 / 1000.
Proof.
  unfold band_freq. pose proof sqrt2_bounds as [A _]. pose proof (sqrt_sqrt 2 ltac:(lra)) as Q.
  assert (0 < 625 / 10 / sqrt 2) as P by (apply Rdiv_lt_0_compat; lra). pose proof (sqrt_sqrt (625 / 10 / sqrt 2) ltac:(lra)) as E.
  replace (sqrt (625 / 10 / sqrt 2) ^ 4) with ((sqrt (625 / 10 / sqrt 2) * sqrt (625 / 10 / sqrt 2)) * (sqrt (625 / 10 / sqrt 2) * sqrt (625 / 10 / sqrt 2))) by ring.
  rewrite E. replace (625 / 10 / sqrt 2 * (625 / 10 / sqrt 2)) with (625 / 10 * (625 / 10) / (sqrt 2 * sqrt 2)) by (field; lra). rewrite Q. lra.
Qed.
(** rounding 7 fs / f: [r] if (r - 1/2) f < 7 fs < (r + 1/2) f, compared as fourth powers *)
Lemma round_by_power fs r : (0 < fs)%Z -> (1 <= r)%Z ->
  ((2 * IZR r - 1) ^ 4 * 1953125 < 16 * (7 * IZR fs) ^ 4 * 1000) -> (16 * (7 * IZR fs) ^ 4 * 1000 < (2 * IZR r + 1) ^ 4 * 1953125) ->
  is_round r (7 * IZR fs / band_freq 0).
Proof.
  intros Hf Hr H1 H2. pose proof freq0 as [F1 F2]. pose proof freq0_4 as F4. set (f := band_freq 0) in *. apply IZR_lt in Hf. apply IZR_le in Hr.
  set (y := 7 * IZR fs / f). assert (y * f = 7 * IZR fs) as E by (unfold y; field; lra).
  assert (0 <= y) as Y0 by (apply Rmult_le_pos; [lra|left; apply Rinv_0_lt_compat; lra]).
  assert ((2 * y) ^ 4 * 1953125 = 16 * (7 * IZR fs) ^ 4 * 1000) as Q.
  { rewrite <- E. replace (1953125) with (1000 * f ^ 4) by (rewrite F4; lra). ring. }
  assert (2 * IZR r - 1 < 2 * y) as B1.
  { apply Rnot_le_lt. intro N. assert ((2 * y) ^ 4 <= (2 * IZR r - 1) ^ 4) by (apply pow_incr; lra). lra. }
  assert (2 * y < 2 * IZR r + 1) as B2.
  { apply Rnot_le_lt. intro N. assert ((2 * IZR r + 1) ^ 4 <= (2 * y) ^ 4) by (apply pow_incr; lra). lra. }
  split; [unfold Rabs; destruct (Rcase_abs _); lra|]. intros C. exfalso. unfold Rabs in C. destruct (Rcase_abs _) in C; lra.
Qed.
Lemma size0 fs r n : (0 < fs)%Z -> (1 <= r)%Z ->
  ((2 * IZR r - 1) ^ 4 * 1953125 < 16 * (7 * IZR fs) ^ 4 * 1000) -> (16 * (7 * IZR fs) ^ 4 * 1000 < (2 * IZR r + 1) ^ 4 * 1953125) ->
  even_ceiling r n -> Z.of_nat (size_of fs 0) = n.
Proof.
  intros Hf Hr H1 H2 E. destruct (size_of_ok fs 0 Hf) as (r' & R1 & R2).
  rewrite (is_round_unique r' r _ R1 (round_by_power fs r Hf Hr H1 H2)) in R2. apply (even_ceiling_unique r); assumption.
Qed.
Lemma size_48k : (size_of 48000 0 mod 4 = 0)%nat.
Proof.
  apply Nat2Z.inj. rewrite Nat2Z.inj_mod. rewrite (size0 48000 50543 50544); [reflexivity|lia|lia|lra|lra|]. split; [lia|reflexivity].
Qed.
Lemma size_44k : (size_of 44100 0 mod 4 = 0)%nat.
Proof.
  apply Nat2Z.inj. rewrite Nat2Z.inj_mod. rewrite (size0 44100 46436 46436); [reflexivity|lia|lia|lra|lra|]. split; [lia|reflexivity].
Qed.
Lemma size_96k : (size_of 96000 0 mod 4 <> 0)%nat.
Proof.
  intro H. apply (f_equal Z.of_nat) in H. rewrite Nat2Z.inj_mod in H. rewrite (size0 96000 101085 101086) in H; [discriminate|lia|lia|lra|lra|]. split; [lia|reflexivity].
Qed.
