(** Proofs about process.py: fractional octave filter bank. *)
From Verif Require Import Base BaseFacts M_utils M_sig M_process P_proc1 P_proc2.
Open Scope R_scope.

Definition en (g : list (list R)) (r j : nat) : R := nth j (nth r g []) 0.

Lemma nth_fill_from l a x j : (a <= length l)%nat -> (j < length l)%nat ->
  nth j (fill_from l (Z.of_nat a) x) 0 = if Nat.leb a j then x else nth j l 0.
Proof.
  intros Ha Hj. unfold fill_from. rewrite norm_idx_nat by auto.
  destruct (Nat.leb_spec a j) as [H|H].
  - rewrite app_nth2; rewrite firstn_length; [|lia]. apply nth_repeat_in. lia.
  - rewrite app_nth1 by (rewrite firstn_length; lia). apply nth_firstn; auto.
Qed.
Lemma length_fill_from l a x : length (fill_from l a x) = length l.
Proof.
  unfold fill_from. rewrite app_length, firstn_length, repeat_length.
  pose proof (norm_idx_le (length l) a). lia.
Qed.
Lemma nth_fill_to l b x j : (b <= length l)%nat -> (j < length l)%nat ->
  nth j (fill_to l (Z.of_nat b) x) 0 = if Nat.ltb j b then x else nth j l 0.
Proof.
  intros Hb Hj. unfold fill_to. rewrite norm_idx_nat by auto.
  destruct (Nat.ltb_spec j b) as [H|H].
  - rewrite app_nth1 by (rewrite repeat_length; lia). apply nth_repeat_in. auto.
  - rewrite app_nth2; rewrite repeat_length; [|lia]. rewrite nth_skipn. f_equal. lia.
Qed.
Lemma length_fill_to l a x : length (fill_to l a x) = length l.
Proof.
  unfold fill_to. rewrite app_length, skipn_length, repeat_length.
  pose proof (norm_idx_le (length l) a). lia.
Qed.

(** ** transition *)
Lemma fo_slope_bound l x : -1 <= x <= 1 -> -1 <= fo_slope l x <= 1.
Proof.
  revert x; induction l as [|l IH]; intros x H; cbn [fo_slope]; auto. apply IH. apply SIN_bound.
Qed.
Lemma fo_slope_1 l : fo_slope l 1 = 1.
Proof.
  induction l as [|l IH]; cbn [fo_slope]; auto. rewrite Rmult_1_r, sin_PI2. exact IH.
Qed.

Lemma fo_angle l x : -1 <= x <= 1 -> 0 <= PI / 2 * fo_shift (fo_slope l x) <= PI / 2.
Proof.
  intros H. pose proof (fo_slope_bound l x H). unfold fo_shift. pose proof PI_RGT_0. split; nra.
Qed.

Lemma length_phi0 P : length (fo_phi0 (Z.of_nat P)) = (2 * P + 1)%nat.
Proof. unfold fo_phi0. rewrite map_length, seq_length. lia. Qed.

Lemma nth_phi0 P j : (j < 2 * P + 1)%nat ->
  -1 <= nth j (fo_phi0 (Z.of_nat P)) 0 <= 1 /\
  (j = (2 * P)%nat -> nth j (fo_phi0 (Z.of_nat P)) 0 = 1).
Proof.
  intros Hj. unfold fo_phi0. rewrite nth_map_seq by lia.
  destruct (Z.eqb_spec (Z.of_nat P) 0) as [E|E]; [lra|].
  assert (0 < IZR (Z.of_nat P)) by (apply IZR_lt; lia).
  split; [split|].
  - apply Rmult_le_reg_r with (IZR (Z.of_nat P)); auto. unfold Rdiv. rewrite Rmult_assoc, Rinv_l by lra.
    rewrite Rmult_1_r, <- opp_IZR, <- mult_IZR || idtac.
    rewrite plus_IZR, opp_IZR. assert (0 <= IZR (Z.of_nat j)) by (apply IZR_le; lia). lra.
  - apply Rmult_le_reg_r with (IZR (Z.of_nat P)); auto. unfold Rdiv. rewrite Rmult_assoc, Rinv_l by lra.
    rewrite Rmult_1_r, Rmult_1_l. apply IZR_le. lia.
  - intros ->. replace (- Z.of_nat P + Z.of_nat (2 * P))%Z with (Z.of_nat P) by lia. field. lra.
Qed.

Lemma length_fo_a l P : length (fo_a l (Z.of_nat P)) = (2 * P + 1)%nat.
Proof. unfold fo_a. rewrite map_length, length_phi0. auto. Qed.
Lemma length_fo_b l P : length (fo_b l (Z.of_nat P)) = (2 * P + 1)%nat.
Proof. unfold fo_b. rewrite map_length, length_phi0. auto. Qed.

Lemma fo_ab l P j : (j < 2 * P + 1)%nat ->
  let a := nth j (fo_a l (Z.of_nat P)) 0 in let b := nth j (fo_b l (Z.of_nat P)) 0 in
  a ^ 2 + b ^ 2 = 1 /\ 0 <= a <= 1 /\ 0 <= b <= 1 /\ (j = (2 * P)%nat -> a = 1 /\ b = 0).
Proof.
  intros Hj. cbn zeta. unfold fo_a, fo_b.
  rewrite !(nth_map_in _ _ j 0 0) by (rewrite length_phi0; auto).
  destruct (nth_phi0 P j Hj) as [B E]. set (x := nth j (fo_phi0 (Z.of_nat P)) 0) in *.
  pose proof (fo_angle l x B) as A. pose proof PI_RGT_0.
  set (y := PI / 2 * fo_shift (fo_slope l x)) in *.
  pose proof (sin2_cos2 y) as S. unfold Rsqr in S.
  pose proof (SIN_bound y). pose proof (COS_bound y).
  assert (0 <= sin y) by (apply sin_ge_0; lra).
  assert (0 <= cos y) by (apply cos_ge_0; lra).
  split; [lra|]. split; [lra|]. split; [lra|].
  intros Hl. specialize (E Hl). unfold y. rewrite E, fo_slope_1.
  replace (PI / 2 * fo_shift 1) with (PI / 2) by (unfold fo_shift; field).
  rewrite sin_PI2, cos_PI2. auto.
Qed.

(** ** one band *)
Lemma fo_band_spec l g i k P B :
  (S i < length g)%nat -> (forall r, (r < length g)%nat -> length (nth r g []) = B) ->
  (P <= k)%nat -> (k + P + 1 <= B)%nat ->
  exists g', fo_band l g i (Z.of_nat k, Z.of_nat P) = Ok g' /\ length g' = length g /\
    (forall r, (r < length g)%nat -> length (nth r g' []) = B) /\
    (forall r j, r <> i -> r <> S i -> en g' r j = en g r j) /\
    (forall j, (j < B)%nat -> en g' i j =
       if Nat.leb (k + P) j then 0
       else if Nat.leb (k - P) j then nth (j - (k - P)) (fo_b l (Z.of_nat P)) 0 else en g i j) /\
    (forall j, (j < B)%nat -> en g' (S i) j =
       if Nat.ltb j (k - P) then 0
       else if Nat.leb j (k + P) then nth (j - (k - P)) (fo_a l (Z.of_nat P)) 0 else en g (S i) j).
Proof.
  intros Hi HB HP Hk. unfold fo_band.
  replace (Z.of_nat k - Z.of_nat P)%Z with (Z.of_nat (k - P)) by lia.
  replace (Z.of_nat k + Z.of_nat P + 1)%Z with (Z.of_nat (k + P + 1)) by lia.
  replace (Z.of_nat k + Z.of_nat P)%Z with (Z.of_nat (k + P)) by lia.
  destruct (nth_slice_set (nth i g []) (k - P) (k + P + 1) (fo_b l (Z.of_nat P)) 0 0)
    as (r0 & E0 & L0 & _); [rewrite HB by lia; lia|rewrite length_fo_b; lia|].
  assert (N0 : forall j, nth j r0 0 = if (Nat.leb (k - P) j && Nat.ltb j (k + P + 1))%bool
            then nth (j - (k - P)) (fo_b l (Z.of_nat P)) 0 else nth j (nth i g []) 0).
  { intros j. destruct (nth_slice_set (nth i g []) (k - P) (k + P + 1) (fo_b l (Z.of_nat P)) 0 j)
      as (r0' & E0' & _ & N); [rewrite HB by lia; lia|rewrite length_fo_b; lia|]. congruence. }
  rewrite E0. cbn [bind].
  set (g1 := upd g i (fill_from r0 (Z.of_nat (k + P)) 0)).
  assert (G1 : nth (S i) g1 [] = nth (S i) g []) by (unfold g1; apply nth_upd_other; lia).
  destruct (nth_slice_set (nth (S i) g1 []) (k - P) (k + P + 1) (fo_a l (Z.of_nat P)) 0 0)
    as (r1 & E1 & L1 & _); [rewrite G1, HB by lia; lia|rewrite length_fo_a; lia|].
  assert (N1 : forall j, nth j r1 0 = if (Nat.leb (k - P) j && Nat.ltb j (k + P + 1))%bool
            then nth (j - (k - P)) (fo_a l (Z.of_nat P)) 0 else nth j (nth (S i) g []) 0).
  { intros j. destruct (nth_slice_set (nth (S i) g1 []) (k - P) (k + P + 1) (fo_a l (Z.of_nat P)) 0 j)
      as (r1' & E1' & _ & N); [rewrite G1, HB by lia; lia|rewrite length_fo_a; lia|].
    rewrite E1 in E1'. injection E1' as <-. rewrite G1 in N. exact N. }
  rewrite E1. cbn [bind]. rewrite HB in L0 by lia. rewrite G1, HB in L1 by lia.
  eexists. split; [reflexivity|].
  assert (Lg1 : length g1 = length g) by (unfold g1; apply length_upd).
  split; [rewrite length_upd; auto|]. split; [|split; [|split]].
  - intros r Hr. destruct (Nat.eq_dec r (S i)) as [->|H1].
    + rewrite nth_upd_same by lia. rewrite length_fill_to. auto.
    + rewrite nth_upd_other by lia. unfold g1. destruct (Nat.eq_dec r i) as [->|H2].
      * rewrite nth_upd_same by lia. rewrite length_fill_from. auto.
      * rewrite nth_upd_other by lia. auto.
  - intros r j H1 H2. unfold en. rewrite nth_upd_other by lia. unfold g1. rewrite nth_upd_other by lia. auto.
  - intros j Hj. unfold en. rewrite nth_upd_other by lia. unfold g1. rewrite nth_upd_same by lia.
    rewrite nth_fill_from by lia. destruct (Nat.leb_spec (k + P) j); auto. rewrite N0.
    destruct (Nat.leb_spec (k - P) j); cbn [andb]; auto.
    destruct (Nat.ltb_spec j (k + P + 1)); [auto|lia].
  - intros j Hj. unfold en. rewrite nth_upd_same by lia.
    rewrite nth_fill_to by lia. destruct (Nat.ltb_spec j (k - P)); auto. rewrite N1.
    destruct (Nat.leb_spec (k - P) j); [|lia]. cbn [andb].
    destruct (Nat.ltb_spec j (k + P + 1)), (Nat.leb_spec j (k + P)); auto; lia.
Qed.

(** neighbouring transitions do not overlap and lie inside the spectrum *)
Fixpoint chain (B e : nat) (kps : list (nat * nat)) : Prop :=
  match kps with
  | [] => True
  | (k, P) :: t => (P <= k)%nat /\ (e <= k - P)%nat /\ (k + P + 1 <= B)%nat /\ chain B (k + P) t
  end.

Definition fo_inv (g : list (list R)) (B m e : nat) : Prop :=
  (forall r, (r < length g)%nat -> length (nth r g []) = B) /\
  (forall j, (j < B)%nat ->
    (forall r, (m < r < length g)%nat -> en g r j = 1) /\
    ((e <= j)%nat -> en g m j = 1 /\ forall r, (r < m)%nat -> en g r j = 0) /\
    rsum (S m) (fun r => en g r j ^ 2) = 1 /\
    (forall r, (r < length g)%nat -> 0 <= en g r j <= 1)).

Lemma fo_inv_step l g B m e k P :
  fo_inv g B m e -> (S m < length g)%nat -> (P <= k)%nat -> (e <= k - P)%nat -> (k + P + 1 <= B)%nat ->
  exists g', fo_band l g m (Z.of_nat k, Z.of_nat P) = Ok g' /\ length g' = length g /\
    fo_inv g' B (S m) (k + P).
Proof.
  intros [HB HI] Hm HP He Hk.
  destruct (fo_band_spec l g m k P B Hm HB HP Hk) as (g' & E & Lg & LB & Oth & Ri & RSi).
  exists g'. split; auto. split; auto. split; [intros r Hr; apply LB; lia|].
  intros j Hj. destruct (HI j Hj) as (H1 & H2 & H3 & H4). rewrite Lg.
  specialize (Ri j Hj). specialize (RSi j Hj).
  split; [|split; [|split]].
  - intros r Hr. rewrite Oth by lia. apply H1. lia.
  - intros Hge. split.
    + rewrite RSi. destruct (Nat.ltb_spec j (k - P)); [lia|].
      destruct (Nat.leb_spec j (k + P)).
      * destruct (fo_ab l P (j - (k - P)) ltac:(lia)) as (_ & _ & _ & F). apply F. lia.
      * apply H1. lia.
    + intros r Hr. destruct (Nat.eq_dec r m) as [->|Hrm].
      * rewrite Ri. destruct (Nat.leb_spec (k + P) j); [auto|lia].
      * rewrite Oth by lia. apply H2; lia.
  - change (rsum (S (S m)) (fun r => en g' r j ^ 2)) with
      (rsum m (fun r => en g' r j ^ 2) + en g' m j ^ 2 + en g' (S m) j ^ 2).
    change (rsum (S m) (fun r => en g r j ^ 2)) with (rsum m (fun r => en g r j ^ 2) + en g m j ^ 2) in H3.
    rewrite (rsum_ext m _ (fun r => en g r j ^ 2)) by (intros r Hr; rewrite Oth by lia; auto).
    rewrite Ri, RSi. destruct (Nat.ltb_spec j (k - P)) as [C1|C1].
    + destruct (Nat.leb_spec (k + P) j); [lia|]. destruct (Nat.leb_spec (k - P) j); [lia|]. lra.
    + destruct (H2 ltac:(lia)) as [_ Z].
      rewrite (rsum_0 m) by (intros r Hr; rewrite Z by auto; ring).
      destruct (Nat.leb_spec (k - P) j); [|lia].
      destruct (Nat.leb_spec j (k + P)) as [C2|C2].
      * destruct (fo_ab l P (j - (k - P)) ltac:(lia)) as (S1 & _ & _ & F). cbn zeta in *.
        destruct (Nat.leb_spec (k + P) j) as [C3|C3]; [|lra].
        destruct F as [F1 F2]; [lia|]. rewrite F1. ring.
      * destruct (Nat.leb_spec (k + P) j); [|lia]. rewrite H1 by lia. ring.
  - intros r Hr. destruct (Nat.eq_dec r m) as [->|Hrm].
    + rewrite Ri. destruct (Nat.leb_spec (k + P) j); [lra|].
      destruct (Nat.leb_spec (k - P) j); [|auto].
      destruct (fo_ab l P (j - (k - P)) ltac:(lia)) as (_ & _ & F & _). exact F.
    + destruct (Nat.eq_dec r (S m)) as [->|Hrs].
      * rewrite RSi. destruct (Nat.ltb_spec j (k - P)); [lra|].
        destruct (Nat.leb_spec j (k + P)); [|auto].
        destruct (fo_ab l P (j - (k - P)) ltac:(lia)) as (_ & F & _). exact F.
      * rewrite Oth by lia. auto.
Qed.

Definition zpair (kp : nat * nat) : Z * Z := (Z.of_nat (fst kp), Z.of_nat (snd kp)).

Lemma fo_bands_inv l B kps : forall g m e, fo_inv g B m e -> chain B e kps ->
  length g = (m + length kps + 1)%nat ->
  exists g', fo_bands l m (map zpair kps) g = Ok g' /\ length g' = length g /\
    exists e', fo_inv g' B (m + length kps) e'.
Proof.
  induction kps as [|[k P] kps IH]; intros g m e HI HC HL; cbn [map fo_bands].
  - exists g. split; auto. split; auto. exists e. cbn. rewrite Nat.add_0_r. auto.
  - destruct HC as (C1 & C2 & C3 & C4). cbn [length] in HL.
    destruct (fo_inv_step l g B m e k P HI ltac:(lia) C1 C2 C3) as (g1 & E1 & L1 & I1).
    change (zpair (k, P)) with (Z.of_nat k, Z.of_nat P). rewrite E1. cbn [bind].
    destruct (IH g1 (S m) (k + P)%nat I1 C4 ltac:(lia)) as (g' & E' & L' & e' & I').
    exists g'. split; auto. split; [lia|]. exists e'. cbn [length].
    replace (m + S (length kps))%nat with (S m + length kps)%nat by lia. auto.
Qed.

Lemma fo_init_inv B n : (0 < n)%nat -> fo_inv (repeat (repeat 1 B) n) B 0 0.
Proof.
  intros Hn. assert (E : forall r j, (r < n)%nat -> (j < B)%nat -> en (repeat (repeat 1 B) n) r j = 1).
  { intros r j Hr Hj. unfold en. rewrite (nth_repeat_in (repeat 1 B)) by auto. apply nth_repeat_in; auto. }
  split.
  - intros r Hr. rewrite repeat_length in Hr. rewrite nth_repeat_in by auto. apply repeat_length.
  - intros j Hj. rewrite repeat_length. split; [intros; apply E; auto; lia|].
    split; [intros _; split; [apply E; auto|intros; lia]|]. split.
    + cbn. rewrite E by auto. ring.
    + intros r Hr. rewrite E by auto. lra.
Qed.

(** ** centre frequencies *)
Lemma centres_first fuel n f fh fcs : fo_centres fuel n f fh = Ok fcs -> exists t, fcs = f :: t.
Proof.
  destruct fuel; cbn; [discriminate|]. destruct (Rltb _ _).
  - destruct (fo_centres _ _ _ _); cbn; [|discriminate]. intros [= <-]. eauto.
  - intros [= <-]. eauto.
Qed.

(** a geometric sequence, stopped by the limit *)
Lemma centres_spec fuel n : 0 < n -> forall f fh fcs, fo_centres fuel n f fh = Ok fcs ->
  forall i, (i < length fcs)%nat ->
    nth i fcs 0 = Rpower 2 (INR i / n) * f /\
    ((S i < length fcs)%nat -> nth i fcs 0 * Rpower 2 (1 / (2 * n)) < fh) /\
    (S i = length fcs -> fh <= nth i fcs 0 * Rpower 2 (1 / (2 * n))).
Proof.
  intros Hn. induction fuel as [|fuel IH]; intros f fh fcs; cbn [fo_centres]; [discriminate|].
  destruct (Rltb (f * _) fh) eqn:E; [apply Rltb_true in E|apply Rltb_false in E].
  - destruct (fo_centres fuel n (Rpower 2 (1 / n) * f) fh) as [t|] eqn:Et; cbn [bind]; [|discriminate].
    intros [= <-]. specialize (IH _ _ _ Et). destruct (centres_first _ _ _ _ _ Et) as [t' Ht'].
    assert (Lt : (0 < length t)%nat) by (rewrite Ht'; cbn; lia).
    intros [|i] Hi; cbn [nth length].
    + replace (INR 0 / n) with 0 by (cbn; unfold Rdiv; ring). rewrite Rpower_O by lra.
      split; [ring|]. split; [intros _; exact E|]. intros. lia.
    + cbn [length] in Hi. destruct (IH i ltac:(lia)) as (A & B & C). split; [|split].
      * rewrite A, <- Rmult_assoc, <- Rpower_plus, S_INR. f_equal. f_equal. field. lra.
      * intros H. apply B. cbn [length]. lia.
      * intros H. apply C. cbn [length]. lia.
  - intros [= <-] [|i] Hi; cbn [nth length] in *; [|lia].
    replace (INR 0 / n) with 0 by (cbn; unfold Rdiv; ring). rewrite Rpower_O by lra.
    split; [ring|]. split; [intros; lia|auto].
Qed.

(** termination for positive f_low *)
Lemma centres_terminate n f fh : 0 < n -> 0 < f ->
  exists fuel0, forall fuel, (fuel0 <= fuel)%nat -> exists fcs, fo_centres fuel n f fh = Ok fcs.
Proof.
  intros Hn Hf. set (q := Rpower 2 (1 / n)).
  assert (Hq : 1 < q) by (apply Rpower_gt_1; [lra|apply Rdiv_lt_0_compat; lra]).
  assert (Hc : 1 < Rpower 2 (1 / (2 * n))) by (apply Rpower_gt_1; [lra|apply Rdiv_lt_0_compat; lra]).
  assert (G : forall k f, 0 < f -> fh <= q ^ k * f -> forall fuel, (S k <= fuel)%nat ->
             exists fcs, fo_centres fuel n f fh = Ok fcs).
  { induction k as [|k IH]; intros f0 Hf0 Hk fuel Hfu; (destruct fuel as [|fuel]; [lia|]); cbn [fo_centres].
    - cbn in Hk. replace (Rltb _ fh) with false; [eauto|]. symmetry. apply Rltb_false. nra.
    - destruct (Rltb _ _); [|eauto].
      destruct (IH (q * f0)) with (fuel := fuel) as [t Et]; [nra|cbn in Hk; nra|lia|].
      fold q. rewrite Et. cbn [bind]. eauto. }
  destruct (Pow_x_infinity q ltac:(rewrite Rabs_pos_eq; lra) (fh / f)) as [N HN].
  exists (S N). intros fuel Hfu. apply (G N f Hf); auto.
  specialize (HN N ltac:(lia)). rewrite Rabs_pos_eq in HN by (apply pow_le; lra).
  apply Rge_le in HN. apply Rmult_le_compat_r with (r := f) in HN; [|lra].
  replace (fh / f * f) with fh in HN by (field; lra). auto.
Qed.

(** non-termination for f_low <= 0 below the limit *)
Lemma centres_diverge n f fh : 0 < n -> f <= 0 -> 0 < fh ->
  forall fuel, fo_centres fuel n f fh = Err OutOfFuel.
Proof.
  intros Hn Hf Hfh fuel.
  assert (0 < Rpower 2 (1 / n)) by apply exp_pos.
  assert (0 < Rpower 2 (1 / (2 * n))) by apply exp_pos.
  revert f Hf. induction fuel as [|fuel IH]; intros f Hf; cbn [fo_centres]; auto.
  replace (Rltb _ fh) with true by (symmetry; apply Rltb_true; nra).
  rewrite IH by nra. reflexivity.
Qed.

(** ** DFT lines *)
Lemma np_round_bound x : IZR (np_round x) <= x + 1 / 2 /\ x - 1 / 2 <= IZR (np_round x).
Proof.
  unfold np_round. pose proof (zfloor_spec x).
  destruct (Rltb (x - IZR (zfloor x)) (1 / 2)) eqn:E1; [apply Rltb_true in E1; lra|apply Rltb_false in E1].
  destruct (Rltb (1 / 2) _) eqn:E2; [rewrite plus_IZR; lra|apply Rltb_false in E2].
  destruct (Z.even _); [lra|rewrite plus_IZR; lra].
Qed.
Lemma np_round_small x : 0 <= x < 1 / 2 -> np_round x = 0%Z.
Proof.
  intros H. unfold np_round. assert (F : zfloor x = 0%Z).
  { apply Z.le_antisymm; [apply Z.lt_succ_r; apply zfloor_lt_iff; cbn; lra|apply zfloor_le_iff; lra]. }
  rewrite F. replace (Rltb (x - 0) (1 / 2)) with true; auto. symmetry. apply Rltb_true. lra.
Qed.
Lemma np_round_nonneg x : 0 <= x -> (0 <= np_round x)%Z.
Proof.
  intros H. unfold np_round. assert (0 <= zfloor x)%Z by (apply zfloor_le_iff; lra).
  destruct (Rltb _ _); [auto|]. destruct (Rltb _ _); [lia|]. destruct (Z.even _); lia.
Qed.

Lemma Rpower_half_octave n : 1 <= n -> 1 < Rpower 2 (1 / (2 * n)) < 3 / 2.
Proof.
  intros Hn. split; [apply Rpower_gt_1; [lra|apply Rdiv_lt_0_compat; lra]|].
  apply Rle_lt_trans with (Rpower 2 (/ 2)).
  - apply Rle_Rpower; [lra|]. unfold Rdiv. rewrite Rmult_1_l.
    apply Rinv_le_contravar; lra.
  - rewrite Rpower_sqrt by lra. rewrite <- (sqrt_pow2 (3 / 2)) by lra.
    apply sqrt_lt_1_alt. lra.
Qed.

(** position of the lower band edge in DFT lines *)
Definition fo_pos (N fs n fc : R) : R := N * fo_lo n fc / fs.
Lemma fo_k_pos N fs n fc : fs <> 0 -> fo_k N fs n fc = zfloor (fo_pos N fs n fc).
Proof.
  intros. unfold fo_k, fo_pos. f_equal. pose proof PI_RGT_0. field. split; lra.
Qed.
Lemma fo_P_pos N fs n ov fc : fs <> 0 ->
  fo_P N fs n ov fc = np_round (ov * (fo_pos N fs n fc * (Rpower 2 (1 / (2 * n)) - 1))).
Proof.
  intros. unfold fo_P, fo_pos, fo_lo. f_equal. pose proof PI_RGT_0.
  assert (0 < Rpower 2 (1 / (2 * n))) by apply exp_pos. field. repeat split; lra.
Qed.

Lemma P_le_k x c ov : 0 <= x -> 1 < c < 3 / 2 -> 0 <= ov <= 1 / 2 ->
  (0 <= np_round (ov * (x * (c - 1))) <= zfloor x)%Z.
Proof.
  intros Hx Hc Ho.
  assert (A : 0 <= ov * (x * (c - 1)) <= x / 4).
  { assert (0 <= x * (c - 1) <= x / 2) by nra. split; [nra|]. nra. }
  split; [apply np_round_nonneg; lra|].
  destruct (Rlt_le_dec x 2) as [L|L].
  - rewrite np_round_small by lra. apply zfloor_le_iff. lra.
  - apply zfloor_le_iff. destruct (np_round_bound (ov * (x * (c - 1)))). lra.
Qed.
