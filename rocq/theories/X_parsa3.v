(** Final forms and examples for the post equalizations. *)
From Verif Require Import Base BaseFacts M_utils M_sig M_process M_decoder M_decoder3 M_parsa2 M_parsa3
  S_process S_decoder3 S_parsa2 S_parsa3 P_sig P_dec13 P_proc4 P_proc5 P_parsa3 P_parsa7 P_parsa8 P_parsa9 P_parsa10 P_parsa11 P_parsa12 P_parsa13 P_parsa14
  P_parsa15 P_parsa16 P_parsa17 P_parsa18 P_parsa19.
Open Scope R_scope.

(** ** Sampling rates *)
Lemma rate_exists fs : (0 < fs)%Z -> exists bs : nat -> nat, forall b, band_size fs b (bs b).
Proof. intros H. exists (size_of fs). intros b. apply size_of_ok. exact H. Qed.
Lemma rate_96k firwin2 ls p d a soft : exists fuel0, forall fuel, (fuel0 <= fuel)%nat ->
  sdm_post_equalization firwin2 fuel ls p 96000 d a soft = Err AssertionError.
Proof. apply (post_eq_taps firwin2 ls p 96000 d a soft (size_of 96000)); [lia|intros b B; apply size_of_ok; lia|apply size_96k]. Qed.
Lemma rates_ok fs : fs = 44100%Z \/ fs = 48000%Z -> forall bs, (forall b, (b < 10)%nat -> band_size fs b (bs b)) -> (bs 0 mod 4 = 0)%nat.
Proof.
  intros Hf bs Hb. assert (0 < fs)%Z as P by lia. assert (bs 0%nat = size_of fs 0) as E.
  { destruct (Hb 0%nat ltac:(lia)) as (r & R1 & R2). destruct (size_of_ok fs 0 P) as (r' & R1' & R2').
    rewrite (is_round_unique r r' _ R1 R1') in R2. apply Nat2Z.inj. apply (even_ceiling_unique r'); assumption. }
  rewrite E. destruct Hf as [-> | ->]; [apply size_44k|apply size_48k].
Qed.

(** ** Warnings *)
Lemma f_tail : exists firwin2 ls p d bs fuel0,
  (forall nt g, Nat.odd nt = true -> (2 <= length g)%nat -> exists h, firwin2 nt g = Ok h /\ length h = nt) /\
  (forall b, (b < 10)%nat -> band_size 48000 b (bs b)) /\
  forall fuel, (fuel0 <= fuel)%nat -> exists gs ff out irs,
    frac_octave_filterbank fuel 1 (2 ^ 16) 48000 (625 / 10) (Some 16000) Amplitude (5 / 10) 3 = Ok (gs, ff) /\
    (forall b, (b < 10)%nat -> firwin2 (bs 0 / 2 - 1)%nat (nth b gs []) = Ok (irs b)) /\
    sdm_post_equalization firwin2 fuel ls p 48000 d 1 true = Ok (Some (out, false)) /\
    1 / 2 <= eq_out irs 10 bs true (bs 0%nat) (nc ls) (nr ls) (fun l => / Rpower (nth l d 0) 1) p
               (fun l => map (ent ls l) (seq 0 (nc ls))) 0 (Z.of_nat (nc ls)).
Proof.
  destruct tail_unnoticed as (fw & ls & p & d & f0 & A & B). exists fw, ls, p, d, bs48, f0. split; [exact A|]. split; [intros b _; apply bs48_ok|exact B].
Qed.
Lemma f_alarm : exists firwin2 ls p d bs fuel0, linear_design firwin2 /\
  (forall b, (b < 10)%nat -> band_size 48000 b (bs b)) /\
  forall fuel, (fuel0 <= fuel)%nat -> exists gs ff out irs,
    frac_octave_filterbank fuel 1 (2 ^ 16) 48000 (625 / 10) (Some 16000) Amplitude (5 / 10) 3 = Ok (gs, ff) /\
    (forall b, (b < 10)%nat -> firwin2 (bs 0 / 2 - 1)%nat (nth b gs []) = Ok (irs b)) /\
    sdm_post_equalization firwin2 fuel ls p 48000 d 1 true = Ok (Some (out, true)) /\
    forall l v, (l < nr ls)%nat -> (v < 0 \/ Z.of_nat (nc ls) <= v)%Z ->
      eq_out irs 10 bs true (bs 0%nat) (nc ls) (nr ls) (fun l => / Rpower (nth l d 0) 1) p
               (fun l => map (ent ls l) (seq 0 (nc ls))) l v = 0.
Proof.
  destruct false_alarm as (fw & ls & p & d & f0 & A & B). exists fw, ls, p, d, bs48, f0. split; [exact A|]. split; [intros b _; apply bs48_ok|exact B].
Qed.

(** ** A loud impulse passes unchanged *)
Lemma floor_exists (f : nat -> R) n : exists e, 0 < e /\ forall j, (j < n)%nat -> f j <= 0 \/ e <= f j.
Proof.
  induction n as [|n (e & E & H)]; [exists 1; split; [lra|intros; lia]|].
  destruct (Rle_dec (f n) 0) as [A|A].
  - exists e. split; [exact E|]. intros j J. destruct (Nat.eq_dec j n) as [->|N]; [left; exact A|apply H; lia].
  - exists (Rmin e (f n)). split; [apply Rmin_pos; lra|]. intros j J. destruct (Nat.eq_dec j n) as [->|N]; [right; apply Rmin_r|].
    destruct (H j ltac:(lia)) as [B|B]; [left; exact B|right; pose proof (Rmin_l e (f n)); lra].
Qed.
Lemma floor_exists2 (f : nat -> nat -> R) (m : nat -> nat) n : exists e, 0 < e /\ forall b j, (b < n)%nat -> (j < m b)%nat -> f b j <= 0 \/ e <= f b j.
Proof.
  induction n as [|n (e & E & H)]; [exists 1; split; [lra|intros; lia]|].
  destruct (floor_exists (f n) (m n)) as (e' & E' & H'). exists (Rmin e e'). split; [apply Rmin_pos; lra|].
  intros b j B J. pose proof (Rmin_l e e'). pose proof (Rmin_r e e'). destruct (Nat.eq_dec b n) as [->|N].
  - destruct (H' j J); [left; assumption|right; lra].
  - destruct (H b j ltac:(lia) J); [left; assumption|right; lra].
Qed.
Lemma magnitude_single n m f j0 k : (j0 < m)%nat -> (forall j, (j < m)%nat -> j <> j0 -> f j = 0) -> magnitude n m f k = Rabs (f j0).
Proof.
  intros J Z. unfold magnitude. do 2 (rewrite (rsum_one m j0); [|exact J|intros i I N; rewrite Z by assumption; ring]).
  set (t := 2 * PI * _ / _). rewrite !Rsqr_mult, <- Rmult_plus_distr_l, (Rplus_comm (Rsqr (cos t))), sin2_cos2, Rmult_1_r. apply sqrt_Rsqr_abs.
Qed.
(** [A] at the first of four samples, for two loudspeakers *)
Definition loud_p (A : R) : list R := [A; 0; 0; 0].
Definition loud_mat (A : R) : mat := Mat 2 4 (fun l u => if (l =? 0)%nat then nth u (loud_p A) 0 else 0).
Lemma nth_loud A u : nth u (loud_p A) 0 = if (u =? 0)%nat then A else 0.
Proof. destruct u as [|[|[|[|[|u]]]]]; reflexivity. Qed.
Lemma sig_loud A v : sig_at (loud_p A) v = if (v =? 0)%Z then A else 0.
Proof.
  unfold sig_at. rewrite nth_loud. destruct (Z.leb_spec 0 v); destruct (Z.eqb_spec v 0); try lia; try reflexivity.
  - subst. reflexivity.
  - rewrite (proj2 (Nat.eqb_neq _ _)) by lia. reflexivity.
Qed.
Lemma loud_magnitude A n bs s k : 0 <= A -> magnitude n bs (block bs (loud_p A) s) k = 0 \/
  exists j, (j < bs)%nat /\ magnitude n bs (block bs (loud_p A) s) k = hann (bs + 1) j * A.
Proof.
  intros HA. destruct (Z.leb_spec (- s) (-1)) as [Q|Q].
  - left. rewrite (magnitude_scal n bs 0 _ (fun _ => 0)); [rewrite Rabs_R0; ring|]. intros j J. unfold block. rewrite sig_loud.
    destruct (Z.eqb_spec (s + Z.of_nat j) 0); [lia|ring].
  - destruct (Z.ltb_spec (- s) (Z.of_nat bs)) as [W|W].
    + right. exists (Z.to_nat (- s)). split; [lia|]. rewrite (magnitude_single n bs _ (Z.to_nat (- s))).
      * unfold block. rewrite sig_loud. replace (s + Z.of_nat (Z.to_nat (- s)))%Z with 0%Z by lia. cbn [Z.eqb]. apply Rabs_right.
        apply Rle_ge, Rmult_le_pos; [apply hann_nonneg|exact HA].
      * lia.
      * intros j J N. unfold block. rewrite sig_loud. destruct (Z.eqb_spec (s + Z.of_nat j) 0); [lia|ring].
    + left. rewrite (magnitude_scal n bs 0 _ (fun _ => 0)); [rewrite Rabs_R0; ring|]. intros j J. unfold block. rewrite sig_loud.
      destruct (Z.eqb_spec (s + Z.of_nat j) 0); [lia|ring].
Qed.
Lemma ex_post_eq : exists bs A, (forall b, (b < 10)%nat -> band_size 48000 b (bs b)) /\ (bs 0 mod 4 = 0)%nat /\ 0 < A /\ linear_design middle_design /\
  (forall b s k, (b < 10)%nat -> let m := magnitude (2 * bs b - 1) (bs b) (block (bs b) (loud_p A) s) k in m = 0 \/ 1 / 10 ^ 9 <= m) /\
  exists fuel out warned, sdm_post_equalization middle_design fuel (loud_mat A) (loud_p A) 48000 [1; 2] 1 true = Ok (Some (out, warned)) /\
    ent out 0 0 = A /\ ent out 0 1 = 0 /\ ent out 1 0 = 0.
Proof.
  set (bs := size_of 48000). destruct (floor_exists2 (fun b j => hann (bs b + 1) j) bs 10) as (e & E & H).
  set (A := / e). assert (0 < A) as PA by (apply Rinv_0_lt_compat; exact E).
  assert (forall b, (b < 10)%nat -> band_size 48000 b (bs b)) as Hb by (intros b _; apply size_of_ok; lia).
  assert (forall b s k, (b < 10)%nat -> let m := magnitude (2 * bs b - 1) (bs b) (block (bs b) (loud_p A) s) k in m = 0 \/ 1 / 10 ^ 9 <= m) as M.
  { intros b s k B. cbv zeta. destruct (loud_magnitude A (2 * bs b - 1) (bs b) s k ltac:(lra)) as [Z|(j & J & Q)]; [left; exact Z|]. rewrite Q.
    destruct (H b j B J) as [X|X].
    - left. pose proof (hann_nonneg (bs b + 1) j). assert (hann (bs b + 1) j = 0) as -> by lra. ring.
    - right. assert (1 <= hann (bs b + 1) j * A) by (replace 1 with (e * A) by (unfold A; field; lra); apply Rmult_le_compat_r; lra).
      assert (1 / 10 ^ 9 <= 1); [|lra]. apply Rmult_le_reg_r with (10 ^ 9); [apply pow_lt; lra|]. unfold Rdiv. rewrite Rmult_assoc, Rinv_l by (apply pow_nonzero; lra). lra. }
  exists bs, A. split; [exact Hb|]. split; [apply size_48k|]. split; [exact PA|]. split; [apply middle_linear|]. split; [exact M|].
  destruct (post_eq_identity middle_design (loud_mat A) (loud_p A) 48000 [1; 2] 1 true bs 0) as (f0 & Q); auto.
  - lia.
  - apply size_48k.
  - apply middle_linear.
  - intros [|[|l]] L; cbn in *; try lra; lia.
  - cbn. lia.
  - intros u U. cbn [ent loud_mat Nat.eqb nth]. rewrite Rpower_1 by lra. ring.
  - intros [|l] u L N; [lia|]. reflexivity.
  - destruct (Q f0 (le_n _)) as (out & w & E1 & N1 & N2 & EO). exists f0, out, w. split; [exact E1|].
    rewrite !EO by (cbn; lia). repeat split; reflexivity.
Qed.

(** ** The second equalization at 48 kHz with blocks of 4096 samples *)
Definition line (i : nat) : nat := nth i [3; 7; 15; 30; 60; 120; 241; 482; 965]%nat 0%nat.
Definition half_width (i : nat) : nat := nth i [1; 2; 3; 6; 12; 25; 50; 100; 200]%nat 0%nat.
Lemma sqrt2_digits : 1.41421 < sqrt 2 < 1.41422.
Proof.
  pose proof (sqrt_pos 2). pose proof (sqrt_sqrt 2 ltac:(lra)). split; apply Rnot_le_lt; intro; nra.
Qed.
Lemma is_round_near z x : Rabs (IZR z - x) < 1 / 2 -> is_round z x.
Proof. intros H. split; [lra|]. intros E. lra. Qed.
Lemma half_4096 : (4096 / 2 + 1 = 2049)%nat.
Proof. vm_compute. reflexivity. Qed.
Lemma bands_4096 : transitions (4096 / 2 + 1) 48000 1 (625 / 10) (5 / 10) 9 line half_width /\ separated (4096 / 2 + 1) 9 line half_width.
Proof.
  rewrite half_4096. split.
  - intros i I.
    assert (edge 2049 48000 1 (625 / 10) i * sqrt 2 = 2 ^ i * (16 / 3)) as E.
    { unfold edge. rewrite centre_pow, half_step_1, INR_IZR_INZ. replace (Z.of_nat 2049) with 2049%Z by reflexivity. pose proof sqrt2_bounds. field. lra. }
    rewrite half_step_1. set (e := edge _ _ _ _ _) in *. clearbody e. pose proof sqrt2_digits as [S1 S2]. pose proof (sqrt_sqrt 2 ltac:(lra)) as SS. set (r := sqrt 2) in *. clearbody r.
    assert (e = 2 ^ i * (8 / 3) * r) as Ee by nra.
    assert (5 / 10 * (e * (r - 1)) = 2 ^ i * (8 / 3) * (1 - r / 2)) as Ep by nra.
    rewrite Ep, Ee.
    do 9 (destruct i as [|i]; [cbn [line half_width nth pow Z.of_nat Pos.of_succ_nat Pos.succ]; split; [split; lra|apply is_round_near; apply Rabs_def1; lra]|]). lia.
  - split.
    + intros i I. do 8 (destruct i as [|i]; [cbn; lia|]). lia.
    + intros i I. apply Nat.le_lt_trans with 1165%nat; [|apply Nat.ltb_lt; vm_compute; reflexivity]. do 9 (destruct i as [|i]; [apply Nat.leb_le; vm_compute; reflexivity|]). lia.
Qed.
Lemma middle_complementary nt (gs : list (list R)) (irs : nat -> list R) : (1 <= nt)%nat ->
  (forall b, (b < 10)%nat -> middle_design nt (nth b gs []) = Ok (irs b)) -> rsum 10 (fun b => nth 0 (nth b gs []) 0 ^ 2) = 1 ->
  power_complementary 10 nt irs.
Proof.
  intros N H E k. set (c := ((nt - 1) / 2)%nat). assert (c < nt)%nat as C by (unfold c; apply Nat.div_lt_upper_bound; lia).
  assert (forall b t, (b < 10)%nat -> (t < nt)%nat -> nth t (irs b) 0 = if (t =? c)%nat then nth 0 (nth b gs []) 0 else 0) as Q.
  { intros b t B T. specialize (H b B). unfold middle_design in H. injection H as <-. rewrite nth_map_seq by exact T. reflexivity. }
  transitivity (rsum 10 (fun b => if (k =? 0)%Z then nth 0 (nth b gs []) 0 ^ 2 else 0)).
  - apply rsum_ext. intros b B. rewrite (rsum_one nt c); [|exact C|].
    + rewrite (rsum_one nt c); [|exact C|].
      * rewrite !Q by assumption. rewrite Nat.eqb_refl, Z.sub_diag, Z.eqb_sym. destruct (k =? 0)%Z; ring.
      * intros r R1 R2. rewrite (Q b r B R1), (proj2 (Nat.eqb_neq _ _) R2). destruct (_ =? k)%Z; ring.
    + intros t T1 T2. apply rsum_0. intros r R1. rewrite (Q b t B T1), (proj2 (Nat.eqb_neq _ _) T2). destruct (_ =? k)%Z; ring.
  - destruct (k =? 0)%Z; [exact E|]. apply rsum_0. reflexivity.
Qed.
Lemma middle_total nt g : Nat.odd nt = true -> (2 <= length g)%nat -> exists h, middle_design nt g = Ok h /\ length h = nt.
Proof. apply design_total, middle_linear. Qed.
Lemma ex2_any n k P : transitions (n / 2 + 1) 48000 1 (625 / 10) (5 / 10) 9 k P -> separated (n / 2 + 1) 9 k P -> Nat.even n = true -> (2 <= n)%nat ->
  exists fuel out warned, sdm_post_equalization2 middle_design fuel (loud_mat 1) (loud_p 1) 48000 [1; 2] 1 n 5 =
      Ok (Some (out, repeat (repeat 1 10) (blocks n n 4 - 4), warned)) /\
    ent out 0 0 = 1 /\ ent out 0 1 = 0 /\ ent out 1 0 = 0.
Proof.
  intros T S Ev G2.
  assert (forall l, (l < nr (loud_mat 1))%nat -> 0 < nth l [1; 2] 0) as Dp by (intros [|[|l]] L; cbn in *; try lra; lia).
  destruct (post_eq2_final middle_design (loud_mat 1) (loud_p 1) 48000 [1; 2] 1 n k P ltac:(lia) T S eq_refl Ev G2 middle_total eq_refl Dp 5 ltac:(lia))
    as (gs & irs & f0 & Lg & Lr & V & Ni & Q).
  destruct (post_eq2_identity middle_design (loud_mat 1) (loud_p 1) 48000 [1; 2] 1 n k P 5 0 ltac:(lia) T S eq_refl Ev G2 middle_total eq_refl Dp)
    as (gs' & irs' & f0' & Ni' & Q').
  - lia.
  - cbn. lia.
  - intros u U. cbn [ent loud_mat Nat.eqb nth]. rewrite Rpower_1 by lra. ring.
  - intros [|l] u L N; [lia|]. reflexivity.
  - set (f := (f0 + f0')%nat). destruct (Q f ltac:(unfold f; lia)) as ((ff & Ef) & _). destruct (Q' f ltac:(unfold f; lia)) as ((ff' & Ef') & out & w & E & N1 & N2 & _ & EO).
    pose proof (eq_trans (eq_sym Ef) Ef') as X. injection X as <- _.
    exists f, out, w. split; [exact E|].
    assert (power_complementary 10 (n + 1) irs') as PC.
    { apply (middle_complementary _ gs); [lia|exact Ni'|]. apply V. lia. }
    rewrite !(EO PC) by (cbn; lia). repeat split; reflexivity.
Qed.
Lemma even_4096 : Nat.even 4096 = true.
Proof. vm_compute. reflexivity. Qed.
Lemma two_4096 : (2 <= 4096)%nat.
Proof. apply Nat.leb_le. vm_compute. reflexivity. Qed.
Lemma ex_post_eq2 : transitions (4096 / 2 + 1) 48000 1 (625 / 10) (5 / 10) 9 line half_width /\ separated (4096 / 2 + 1) 9 line half_width /\
  exists fuel out warned, sdm_post_equalization2 middle_design fuel (loud_mat 1) (loud_p 1) 48000 [1; 2] 1 4096 5 =
      Ok (Some (out, repeat (repeat 1 10) (blocks 4096 4096 4 - 4), warned)) /\
    ent out 0 0 = 1 /\ ent out 0 1 = 0 /\ ent out 1 0 = 0.
Proof.
  exact (conj (proj1 bands_4096) (conj (proj2 bands_4096) (ex2_any 4096 line half_width (proj1 bands_4096) (proj2 bands_4096) even_4096 two_4096))).
Qed.

(** ** Closed statements *)
Lemma f2_odd firwin2 ls p fs d a bs k P order : (32000 <= fs)%Z -> transitions (bs / 2 + 1) (IZR fs) 1 (625 / 10) (5 / 10) 9 k P ->
  separated (bs / 2 + 1) 9 k P -> length p = nc ls -> Nat.odd bs = true -> exists fuel0, forall fuel, (fuel0 <= fuel)%nat ->
  sdm_post_equalization2 firwin2 fuel ls p fs d a bs order = Err AssertionError.
Proof. intros. apply (post_eq2_odd firwin2 ls p fs d a bs k P); assumption. Qed.
Lemma f2_order firwin2 ls p fs d a bs k P order : (32000 <= fs)%Z -> transitions (bs / 2 + 1) (IZR fs) 1 (625 / 10) (5 / 10) 9 k P ->
  separated (bs / 2 + 1) 9 k P -> length p = nc ls -> Nat.even bs = true -> (2 <= bs)%nat ->
  (forall nt g, Nat.odd nt = true -> (2 <= length g)%nat -> exists h, firwin2 nt g = Ok h /\ length h = nt) ->
  length d = nr ls -> (forall l, (l < nr ls)%nat -> 0 < nth l d 0) ->
  (order <= 0)%Z -> exists fuel0, forall fuel, (fuel0 <= fuel)%nat ->
  sdm_post_equalization2 firwin2 fuel ls p fs d a bs order = Err IndexError.
Proof. intros. apply (post_eq2_order firwin2 ls p fs d a bs k P); assumption. Qed.
Lemma f2_output firwin2 ls p fs d a bs k P order : (32000 <= fs)%Z -> transitions (bs / 2 + 1) (IZR fs) 1 (625 / 10) (5 / 10) 9 k P ->
  separated (bs / 2 + 1) 9 k P -> length p = nc ls -> Nat.even bs = true -> (2 <= bs)%nat ->
  (forall nt g, Nat.odd nt = true -> (2 <= length g)%nat -> exists h, firwin2 nt g = Ok h /\ length h = nt) ->
  length d = nr ls -> (forall l, (l < nr ls)%nat -> 0 < nth l d 0) -> (1 <= order)%nat ->
  let att l := / Rpower (nth l d 0) a in let x l := map (ent ls l) (seq 0 (nc ls)) in
  exists gs irs fuel0, length gs = 10%nat /\ (forall b, (b < 10)%nat -> length (nth b gs []) = (bs / 2 + 1)%nat) /\
    (forall j, (j < bs / 2 + 1)%nat -> (forall b, (b < 10)%nat -> 0 <= nth j (nth b gs []) 0 <= 1) /\
       rsum 10 (fun b => nth j (nth b gs []) 0 ^ 2) = 1) /\
    (forall b, (b < 10)%nat -> firwin2 (bs + 1)%nat (nth b gs []) = Ok (irs b) /\ length (irs b) = (bs + 1)%nat) /\
    forall fuel, (fuel0 <= fuel)%nat ->
      (exists ff, frac_octave_filterbank fuel 1 (bs / 2 + 1) fs (625 / 10) (Some 16000) Energy (5 / 10) 3 = Ok (gs, ff)) /\
      exists out Sm warned, sdm_post_equalization2 firwin2 fuel ls p fs d a bs (Z.of_nat order) =
          Ok (Some (out, map (fun i => map (fun b => Sm b (i + 2)%nat) (seq 0 10)) (seq 0 (blocks bs bs (nc ls) - 4)), warned)) /\
        nr out = nr ls /\ nc out = nc ls /\
        (forall b, (b < 10)%nat -> smoothing (blocks bs bs (nc ls)) order (fun i => eq2_gain b (nth b gs []) bs (nr ls) att p x (block_start bs bs i)) (Sm b) /\
           forall i, (i < blocks bs bs (nc ls))%nat -> 0 <= Sm b i <= 1) /\
        let F := eq2_out 10 (fun b => nth b gs []) irs bs (nc ls) (nr ls) att p x in
        (forall l u, (l < nr ls)%nat -> (u < nc ls)%nat -> ent out l u = F l (Z.of_nat u)) /\
        (warned = true <-> 1 / 100 < rsum (nr ls) (fun l => rsum (2 * bs + 1) (fun j => Rabs (F l (Z.of_nat j - 2 * Z.of_nat bs)%Z)))).
Proof. intros. apply (post_eq2_final firwin2 ls p fs d a bs k P); assumption. Qed.
