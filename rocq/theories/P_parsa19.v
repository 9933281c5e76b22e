(** Second post equalization: one active loudspeaker. *)
From Verif Require Import Base BaseFacts M_utils M_sig M_process M_decoder M_decoder3 M_parsa2 M_parsa3
  S_process S_decoder3 S_parsa2 S_parsa3 P_sig P_dec13 P_proc4 P_proc5 P_parsa3 P_parsa7 P_parsa8 P_parsa9 P_parsa10 P_parsa11 P_parsa12 P_parsa13 P_parsa14
  P_parsa15 P_parsa16 P_parsa17 P_parsa18.
Open Scope R_scope.

Lemma rsqr_one L l0 f : (l0 < L)%nat -> (forall l, (l < L)%nat -> l <> l0 -> f l = 0) -> 0 <= f l0 -> sqrt (rsum L (fun l => Rsqr (f l))) = f l0.
Proof.
  intros H Z P. rewrite (rsum_one L l0); [apply sqrt_Rsqr; exact P|exact H|]. intros l Hl N. rewrite Z by assumption. apply Rsqr_0.
Qed.
Lemma gain2_one b g bs L att p (x : nat -> list R) l0 s : (l0 < L)%nat -> 0 < att l0 ->
  length (x l0) = length p -> (forall u, (u < length p)%nat -> att l0 * nth u (x l0) 0 = nth u p 0) ->
  (forall l, (l < L)%nat -> l <> l0 -> forall u, nth u (x l) 0 = 0) -> eq2_gain b g bs L att p x s = 1.
Proof.
  intros Hl Ha HL HP HZ.
  assert (forall k, magnitude bs bs (block bs p s) k = att l0 * magnitude bs bs (block bs (x l0) s) k) as M0.
  { intros k. rewrite (magnitude_scal bs bs (att l0) (block bs p s) (block bs (x l0) s)); [rewrite Rabs_right by lra; reflexivity|].
    intros j J. unfold block. rewrite (sig_at_scal (att l0) p (x l0)); [ring|auto|intros u U; rewrite HP by exact U; reflexivity]. }
  assert (forall k l, (l < L)%nat -> l <> l0 -> att l * magnitude bs bs (block bs (x l) s) k = 0) as MZ.
  { intros k l Hl' N. rewrite (magnitude_scal bs bs 0 (block bs (x l) s) (fun _ => 0)); [rewrite Rabs_R0; ring|]. intros j J. unfold block, sig_at. destruct (0 <=? _)%Z; [rewrite HZ by assumption|]; ring. }
  unfold eq2_gain. cbv zeta. set (n := (bs / 2 + 1)%nat).
  assert (band_level n g (fun k => together L att (fun l => magnitude bs bs (block bs (x l) s) k)) = band_level n g (magnitude bs bs (block bs p s))) as ->.
  { unfold band_level. f_equal. apply rsum_ext. intros k K. unfold together. rewrite (rsum_one L l0); [rewrite M0; reflexivity|exact Hl|apply MZ]. }
  assert (band_level n g (fun k => in_power L att (fun l => magnitude bs bs (block bs (x l) s) k)) = band_level n g (magnitude bs bs (block bs p s))) as ->.
  { unfold band_level. f_equal. apply rsum_ext. intros k K. unfold in_power. rewrite (rsqr_one L l0); [rewrite M0; reflexivity|exact Hl|apply MZ|].
    apply Rmult_le_pos; [lra|apply magnitude_nonneg]. }
  set (lv := band_level _ _ _). assert (ratio_gain lv lv = 1) as ->; [|ring].
  unfold ratio_gain. destruct (Req_EM_T lv 0); [reflexivity|]. replace (lv / lv) with 1 by (field; assumption). destruct (Rle_dec 1 1); reflexivity.
Qed.
Lemma smoothing_one n order G Sm : (1 <= order)%nat -> (forall i, (i < n)%nat -> G i = 1) -> smoothing n order G Sm -> forall i, (i < n)%nat -> Sm i = 1.
Proof.
  intros O HG HS i. induction i as [i IH] using lt_wf_ind. intros Hi. pose proof (HS i Hi) as E. cbv zeta in E. rewrite E. destruct i as [|i]; [apply HG; exact Hi|].
  cbn [Nat.eqb]. set (k := Nat.min order (S i)). assert (1 <= k <= S i)%nat as K by (unfold k; lia). clearbody k. clear E.
  destruct (fall_convex k ltac:(lia)) as [_ F1]. destruct k as [|k]; [lia|]. rewrite rsum_shift in F1. replace (S k - 1)%nat with k by lia.
  rewrite HG by exact Hi. rewrite Rmult_1_r.
  rewrite (rsum_ext k _ (fun m => fall (S k) (S m))); [exact F1|]. intros m M. rewrite IH by lia. rewrite Rmult_1_r. f_equal. lia.
Qed.
(** the windowed blocks add up to the signal *)
Lemma blocks_add h x v : (1 <= h)%nat -> rsum (blocks (2 * h) (2 * h) (length x)) (fun i => block_at (2 * h) x (block_start (2 * h) (2 * h) i) v) = sig_at x v.
Proof.
  intros H. destruct (Z.leb_spec 0 v) as [V|V].
  - destruct (Z.ltb_spec v (Z.of_nat (length x))) as [W|W].
    + pose proof (windows_one h (2 * h) (length x) v H ltac:(lia) ltac:(lia)) as Q. unfold window_sum in Q.
      rewrite <- (Rmult_1_l (sig_at x v)), <- Q, Rmult_comm, <- rsum_scal. apply rsum_ext. intros i I. unfold block_at. set (s := block_start _ _ _). cbv zeta.
      replace (s <=? v)%Z with (0 <=? v - s)%Z by (destruct (Z.leb_spec 0 (v - s)); destruct (Z.leb_spec s v); lia).
      replace (v <? s + Z.of_nat (2 * h))%Z with (v - s <? Z.of_nat (2 * h))%Z by (destruct (Z.ltb_spec (v - s) (Z.of_nat (2 * h))); destruct (Z.ltb_spec v (s + Z.of_nat (2 * h))); lia).
      destruct (Z.leb_spec 0 (v - s)); cbn [andb]; [|ring]. destruct (v - s <? _)%Z; [|ring]. unfold block. rewrite Z2Nat.id by assumption. replace (s + (v - s))%Z with v by lia. ring.
    + assert (sig_at x v = 0) as Z0. { unfold sig_at. destruct (0 <=? v)%Z; [|reflexivity]. apply nth_overflow. lia. }
      rewrite Z0. apply rsum_0. intros i I. unfold block_at. set (s := block_start _ _ _). destruct (Z.leb_spec s v); cbn [andb]; [|reflexivity].
      destruct (v <? _)%Z; [|reflexivity]. unfold block. rewrite Z2Nat.id by lia. replace (s + (v - s))%Z with v by lia. rewrite Z0. ring.
  - assert (sig_at x v = 0) as Z0. { unfold sig_at. destruct (Z.leb_spec 0 v); [lia|reflexivity]. }
    rewrite Z0. apply rsum_0. intros i I. unfold block_at. set (s := block_start _ _ _). destruct (Z.leb_spec s v); cbn [andb]; [|reflexivity].
    destruct (v <? _)%Z; [|reflexivity]. unfold block. rewrite Z2Nat.id by lia. replace (s + (v - s))%Z with v by lia. rewrite Z0. ring.
Qed.
Lemma twice_sum w n (f : nat -> Z -> R) v : rsum n (fun i => twice w (f i) v) = twice w (fun u => rsum n (fun i => f i u)) v.
Proof.
  unfold twice. rewrite rsum_swap. apply rsum_ext. intros t T. rewrite rsum_scal. f_equal. rewrite rsum_swap. apply rsum_ext. intros r Q. rewrite rsum_scal. reflexivity.
Qed.
Lemma twice_ext w f g v : (forall u, f u = g u) -> twice w f v = twice w g v.
Proof. intros E. unfold twice. apply rsum_ext. intros t T. f_equal. apply rsum_ext. intros r Q. rewrite E. reflexivity. Qed.

Lemma out2_ones nb gs irs h L att p x l u : (1 <= h)%nat -> (forall b i, (b < nb)%nat -> eq2_gain b (gs b) (2 * h) L att p x (block_start (2 * h) (2 * h) i) = 1) ->
  eq2_out nb gs irs (2 * h) (length (x l)) L att p x l u = rsum nb (fun b => twice (irs b) (sig_at (x l)) u).
Proof.
  intros H G. unfold eq2_out. rewrite rsum_swap. apply rsum_ext. intros b B.
  rewrite (rsum_ext _ _ (fun i => twice (irs b) (block_at (2 * h) (x l) (block_start (2 * h) (2 * h) i)) u)) by (intros i I; rewrite G by exact B; ring).
  rewrite twice_sum. apply twice_ext. intros v. apply blocks_add. exact H.
Qed.
Lemma complementary_sum nb nt irs f v : (forall b, (b < nb)%nat -> length (irs b) = nt) -> power_complementary nb nt irs ->
  rsum nb (fun b => twice (irs b) f v) = f v.
Proof.
  intros HL HC. destruct (Nat.eq_dec nt 0) as [->|N0].
  { exfalso. specialize (HC 0%Z). cbn [Z.eqb] in HC. rewrite rsum_0 in HC; [lra|]. intros b B. reflexivity. }
  set (K := (2 * nt - 1)%nat).
  transitivity (rsum nb (fun b => rsum nt (fun t => rsum nt (fun r => rsum K (fun j =>
    f (v + (Z.of_nat j - Z.of_nat (nt - 1)))%Z * (if (Z.of_nat t - Z.of_nat r =? Z.of_nat j - Z.of_nat (nt - 1))%Z then nth t (irs b) 0 * nth r (irs b) 0 else 0)))))).
  { apply rsum_ext. intros b B. unfold twice. rewrite HL by exact B. apply rsum_ext. intros t T. rewrite <- rsum_scal. apply rsum_ext. intros r Q.
    rewrite (rsum_single _ (t + (nt - 1) - r)%nat); [|unfold K; lia|].
    - destruct (Z.eqb_spec (Z.of_nat t - Z.of_nat r) (Z.of_nat (t + (nt - 1) - r) - Z.of_nat (nt - 1))); [|lia].
      replace (v + (Z.of_nat (t + (nt - 1) - r) - Z.of_nat (nt - 1)))%Z with (v + Z.of_nat t - Z.of_nat r)%Z by lia. ring.
    - intros j J Nj. destruct (Z.eqb_spec (Z.of_nat t - Z.of_nat r) (Z.of_nat j - Z.of_nat (nt - 1))); [lia|ring]. }
  transitivity (rsum K (fun j => f (v + (Z.of_nat j - Z.of_nat (nt - 1)))%Z * (if (Z.of_nat j - Z.of_nat (nt - 1) =? 0)%Z then 1 else 0))).
  - symmetry. transitivity (rsum K (fun j => rsum nb (fun b => rsum nt (fun t => rsum nt (fun r => f (v + (Z.of_nat j - Z.of_nat (nt - 1)))%Z * (if (Z.of_nat t - Z.of_nat r =? Z.of_nat j - Z.of_nat (nt - 1))%Z then nth t (irs b) 0 * nth r (irs b) 0 else 0)))))).
    { apply rsum_ext. intros j J. rewrite <- HC, <- rsum_scal. apply rsum_ext. intros b B. rewrite <- rsum_scal. apply rsum_ext. intros t T. rewrite <- rsum_scal. reflexivity. }
    rewrite (rsum_swap K nb). apply rsum_ext. intros b B. rewrite (rsum_swap K nt). apply rsum_ext. intros t T. rewrite (rsum_swap K nt). reflexivity.
  - rewrite (rsum_single _ (nt - 1)%nat); [|unfold K; lia|].
    + rewrite Z.sub_diag. cbn [Z.eqb]. rewrite Z.add_0_r. ring.
    + intros j J Nj. destruct (Z.eqb_spec (Z.of_nat j - Z.of_nat (nt - 1)) 0); [lia|ring].
Qed.

Lemma post_eq2_identity firwin2 ls p fs d a bs k P order l0 : (32000 <= fs)%Z -> transitions (bs / 2 + 1) (IZR fs) 1 (625 / 10) (5 / 10) 9 k P ->
  separated (bs / 2 + 1) 9 k P -> length p = nc ls -> Nat.even bs = true -> (2 <= bs)%nat ->
  (forall nt g, Nat.odd nt = true -> (2 <= length g)%nat -> exists h, firwin2 nt g = Ok h /\ length h = nt) ->
  length d = nr ls -> (forall l, (l < nr ls)%nat -> 0 < nth l d 0) -> (1 <= order)%nat ->
  (l0 < nr ls)%nat -> (forall u, (u < nc ls)%nat -> ent ls l0 u = Rpower (nth l0 d 0) a * nth u p 0) ->
  (forall l u, (l < nr ls)%nat -> l <> l0 -> ent ls l u = 0) ->
  exists gs irs fuel0, (forall b, (b < 10)%nat -> firwin2 (bs + 1)%nat (nth b gs []) = Ok (irs b)) /\
    forall fuel, (fuel0 <= fuel)%nat ->
    (exists ff, frac_octave_filterbank fuel 1 (bs / 2 + 1) fs (625 / 10) (Some 16000) Energy (5 / 10) 3 = Ok (gs, ff)) /\
    exists out warned, sdm_post_equalization2 firwin2 fuel ls p fs d a bs (Z.of_nat order) =
        Ok (Some (out, repeat (repeat 1 10) (blocks bs bs (nc ls) - 4), warned)) /\
      nr out = nr ls /\ nc out = nc ls /\
      (forall l u, (l < nr ls)%nat -> (u < nc ls)%nat ->
         ent out l u = rsum 10 (fun b => twice (irs b) (sig_at (map (ent ls l) (seq 0 (nc ls)))) (Z.of_nat u))) /\
      (power_complementary 10 (bs + 1) irs -> forall l u, (l < nr ls)%nat -> (u < nc ls)%nat -> ent out l u = ent ls l u).
Proof.
  intros Hf Ht Hs Hp Hb Hb2 Hfw Hd Hd0 Ho Hl HP HZ.
  destruct (post_eq2_final firwin2 ls p fs d a bs k P Hf Ht Hs Hp Hb Hb2 Hfw Hd Hd0 order Ho) as (gs & irs & f0 & Lg & Lr & V & Ni & Q).
  exists gs, irs, f0. split; [intros b B; apply Ni; exact B|]. intros fuel Hfu. destruct (Q fuel Hfu) as (Eff & out & Sm & warned & E & N1 & N2 & HS & HF & _).
  split; [exact Eff|]. exists out, warned.
  set (att := fun l => / Rpower (nth l d 0) a) in *. set (x := fun l => map (ent ls l) (seq 0 (nc ls))) in *.
  assert (forall l, length (x l) = nc ls) as Lx by (intros l; unfold x; rewrite map_length, seq_length; reflexivity).
  assert (forall b i, eq2_gain b (nth b gs []) bs (nr ls) att p x (block_start bs bs i) = 1) as G1.
  { intros b i. apply (gain2_one _ _ _ _ _ _ _ l0); [exact Hl|apply Rinv_0_lt_compat, exp_pos|rewrite Lx; auto| |].
    - intros u U. unfold x. rewrite nth_map_seq by lia. rewrite HP by lia. unfold att. field. pose proof (exp_pos (a * ln (nth l0 d 0))). unfold Rpower. lra.
    - intros l L N u. unfold x. destruct (Nat.lt_ge_cases u (nc ls)) as [A|A].
      + rewrite nth_map_seq by exact A. apply HZ; assumption.
      + apply nth_overflow. rewrite map_length, seq_length. exact A. }
  assert (forall b i, (b < 10)%nat -> (i < blocks bs bs (nc ls))%nat -> Sm b i = 1) as S1.
  { intros b i B I. apply (smoothing_one _ order _ _ Ho) with (2 := proj1 (HS b B)); [intros; apply G1|exact I]. }
  assert (forall l u, (l < nr ls)%nat -> (u < nc ls)%nat -> ent out l u = rsum 10 (fun b => twice (irs b) (sig_at (x l)) (Z.of_nat u))) as EO.
  { intros l u L U. rewrite HF by assumption. assert (exists h, bs = 2 * h)%nat as [h Eh] by (apply Nat.even_spec in Hb; exact Hb).
    rewrite <- (Lx l), Eh. apply out2_ones; [lia|]. intros b i B. rewrite <- Eh. apply G1. }
  split; [|split; [exact N1|split; [exact N2|split; [exact EO|]]]].
  - rewrite E. f_equal. f_equal. f_equal. f_equal. apply (nth_ext _ _ [] []); [rewrite map_length, seq_length, repeat_length; reflexivity|].
    intros i I. rewrite map_length, seq_length in I. rewrite nth_map_seq by exact I. rewrite nth_repeat_in by exact I.
    apply (nth_ext _ _ 0 0); [rewrite map_length, seq_length, repeat_length; reflexivity|]. intros b B. rewrite map_length, seq_length in B.
    rewrite nth_map_seq by exact B. rewrite nth_repeat_in by exact B. apply S1; [exact B|lia].
  - intros C l u L U. rewrite EO by assumption. rewrite (complementary_sum 10 (bs + 1)); [|intros b B; apply Ni; exact B|exact C].
    unfold sig_at. destruct (Z.leb_spec 0 (Z.of_nat u)); [|lia]. rewrite Nat2Z.id. unfold x. apply nth_map_seq. exact U.
Qed.
