(** Proofs about levels, triangles and resample_signal. *)
From Coq Require Import Lra Lia.
From Verif Require Import Base BaseFacts M_utils S_utils P_utils X_utils M_sig S_sig P_sig X_sig M_process M_sph M_decoder P_parsa3 P_proc5 M_misc S_misc P_misc.
Open Scope R_scope.

Lemma power_sum_lsum l : lsum (map cabs2 l) = power_sum l.
Proof. unfold power_sum, cabs2. induction l as [|z l IH]; [reflexivity|]. cbn [map lsum fold_right] in *. rewrite IH. ring. Qed.
Lemma power_nonneg l : 0 <= power_sum l.
Proof. unfold power_sum. induction l as [|z l IH]; [cbn; lra|]. cbn [map fold_right]. pose proof (pow2_ge_0 (fst z)). pose proof (pow2_ge_0 (snd z)). lra. Qed.
Definition cmag (z : R * R) : R := sqrt (fst z ^ 2 + snd z ^ 2).
Lemma cmag_sq z : cmag z ^ 2 = fst z ^ 2 + snd z ^ 2.
Proof. unfold cmag. rewrite <- (Rsqr_pow2 (sqrt _)). unfold Rsqr. apply sqrt_sqrt. pose proof (pow2_ge_0 (fst z)). pose proof (pow2_ge_0 (snd z)). lra. Qed.
Lemma cmag_nonneg z : 0 <= cmag z. Proof. apply sqrt_pos. Qed.
Lemma sqle a b : 0 <= b -> a ^ 2 <= b ^ 2 -> a <= b.
Proof. intros Hb H. cbn in H. nra. Qed.

Lemma rms_core (l : list (R * R)) : 0 < INR (length l) -> let r := sqrt (power_sum l / INR (length l)) in rms_of l r /\
  (forall lo hi, 0 <= lo -> (forall z, In z l -> lo <= sqrt (fst z ^ 2 + snd z ^ 2) <= hi) -> lo <= r <= hi).
Proof.
  intros HL r. subst r. pose proof (power_nonneg l) as PN. assert (SQ : sqrt (power_sum l / INR (length l)) ^ 2 = power_sum l / INR (length l)).
  { rewrite <- (Rsqr_pow2 (sqrt _)). unfold Rsqr. apply sqrt_sqrt. apply Rmult_le_pos; [auto|]. apply Rlt_le, Rinv_0_lt_compat; auto. }
  split; [split; [apply sqrt_pos|rewrite SQ; field; lra]|]. intros lo hi Hlo Hb.
  assert (HH : 0 <= hi). { destruct l as [|z l']; [cbn in HL; lra|]. destruct (Hb z (or_introl eq_refl)). pose proof (sqrt_pos (fst z ^ 2 + snd z ^ 2)). lra. }
  assert (BN : lo ^ 2 * INR (length l) <= power_sum l <= hi ^ 2 * INR (length l)).
  { clear - Hb Hlo HH. unfold power_sum. induction l as [|z l IH]; [cbn; lra|]. cbn [map fold_right length]. rewrite S_INR. destruct IH as [I1 I2]; [intros; apply Hb; right; auto|].
    destruct (Hb z (or_introl eq_refl)) as [B1 B2]. fold (cmag z) in B1, B2. rewrite <- (cmag_sq z). pose proof (cmag_nonneg z). cbn [pow] in *. nra. }
  split; apply sqle; try (apply sqrt_pos); auto; rewrite SQ; apply (Rmult_le_reg_r (INR (length l))); auto; unfold Rdiv; rewrite Rmult_assoc, Rinv_l by lra; lra.
Qed.
Theorem rms_value x ax : (0 < match ax with Cols => cnc x | Rows => cnr x end)%nat ->
  length (rms_axis x ax) = lanes x ax /\
  forall i, (i < lanes x ax)%nat -> exists r, nth i (rms_axis x ax) (0, 0) = (r, 0) /\ rms_of (lane x ax i) r /\
    (forall lo hi, 0 <= lo -> (forall z, In z (lane x ax i) -> lo <= sqrt (fst z ^ 2 + snd z ^ 2) <= hi) -> lo <= r <= hi).
Proof.
  intros Hn. unfold rms_axis. split; [rewrite map_length, seq_length; reflexivity|]. intros i Hi. rewrite nth_map_seq by auto. eexists. split; [reflexivity|].
  rewrite power_sum_lsum. apply rms_core. apply lt_0_INR. unfold lane. destruct ax; rewrite map_length, seq_length; auto.
Qed.
Theorem rms_laws : (forall x, rms x = sqrt (power_sum (map (fun a => (a, 0)) x) / INR (length x))) /\
  (forall c x, rms (map (fun a => c * a) x) = Rabs c * rms x).
Proof.
  split.
  - intros x. unfold rms, power_sum. do 2 f_equal. rewrite map_map. induction x as [|a x IH]; [reflexivity|]. cbn [map lsum fold_right fst snd] in *. rewrite IH. ring.
  - intros c x. unfold rms. rewrite map_length, map_map. assert (E : lsum (map (fun a => c * a * (c * a)) x) = c ^ 2 * lsum (map (fun a => a * a) x)) by (induction x as [|a x IH]; [cbn; ring|]; cbn [map lsum] in *; rewrite IH; ring).
    rewrite E. unfold Rdiv. rewrite Rmult_assoc, sqrt_mult_alt by (apply pow2_ge_0). f_equal. replace (c ^ 2) with (Rsqr c) by (unfold Rsqr; ring). apply sqrt_Rsqr_abs.
Qed.

(** * area_triangle *)
Lemma three_sq a b c : a * a + b * b + c * c = 0 -> a = 0 /\ b = 0 /\ c = 0.
Proof. intros H. pose proof (Rle_0_sqr a). pose proof (Rle_0_sqr b). pose proof (Rle_0_sqr c). unfold Rsqr in *. repeat split; apply Rsqr_0_uniq; unfold Rsqr; lra. Qed.
Lemma area_sq p q r : 4 * area_triangle p q r ^ 2 = dot3 (cross3 (sub3 q p) (sub3 r p)) (cross3 (sub3 q p) (sub3 r p)).
Proof. unfold area_triangle. set (c := cross3 _ _). replace (4 * (/ 2 * norm3 c) ^ 2) with (norm3 c * norm3 c) by field. apply norm3_sq. Qed.
Lemma area_nonneg p q r : 0 <= area_triangle p q r.
Proof. unfold area_triangle. pose proof (sqrt_pos (dot3 (cross3 (sub3 q p) (sub3 r p)) (cross3 (sub3 q p) (sub3 r p)))). fold (norm3 (cross3 (sub3 q p) (sub3 r p))) in H. lra. Qed.
Lemma area_eq p q r p' q' r' : area_triangle p q r ^ 2 = area_triangle p' q' r' ^ 2 -> area_triangle p q r = area_triangle p' q' r'.
Proof. intros H. pose proof (area_nonneg p q r). pose proof (area_nonneg p' q' r'). apply Rle_antisym; apply sqle; auto; lra. Qed.
Theorem area_value p q r : let a := dist q r in let b := dist p r in let c := dist p q in
  0 <= area_triangle p q r /\ 16 * area_triangle p q r ^ 2 = (a + b + c) * (- a + b + c) * (a - b + c) * (a + b - c) /\
  area_triangle q p r = area_triangle p q r /\ area_triangle q r p = area_triangle p q r /\
  (forall t, area_triangle (add3 p t) (add3 q t) (add3 r t) = area_triangle p q r) /\
  (area_triangle p q r = 0 <-> p = q \/ exists s, r = add3 p (scal3 s (sub3 q p))).
Proof.
  intros a b c. split; [apply area_nonneg|].
  assert (SA : a ^ 2 = dot3 (sub3 q r) (sub3 q r)) by (unfold a, dist; rewrite <- norm3_sq; ring). assert (SB : b ^ 2 = dot3 (sub3 p r) (sub3 p r)) by (unfold b, dist; rewrite <- norm3_sq; ring). assert (SC : c ^ 2 = dot3 (sub3 p q) (sub3 p q)) by (unfold c, dist; rewrite <- norm3_sq; ring).
  split.
  { replace ((a + b + c) * (- a + b + c) * (a - b + c) * (a + b - c)) with (2 * a ^ 2 * b ^ 2 + 2 * b ^ 2 * c ^ 2 + 2 * c ^ 2 * a ^ 2 - (a ^ 2) ^ 2 - (b ^ 2) ^ 2 - (c ^ 2) ^ 2) by ring. rewrite SA, SB, SC.
    replace (16 * area_triangle p q r ^ 2) with (4 * (4 * area_triangle p q r ^ 2)) by ring. rewrite area_sq. destruct p as [[px py] pz], q as [[qx qy] qz], r as [[rx ry] rz]. unfold dot3, cross3, sub3, vx, vy, vz. cbn [fst snd]. ring. }
  clear a b c SA SB SC. split; [|split; [|split]].
  - apply area_eq. apply (Rmult_eq_reg_l 4); [|lra]. rewrite !area_sq. destruct p as [[px py] pz], q as [[qx qy] qz], r as [[rx ry] rz]. unfold dot3, cross3, sub3, vx, vy, vz. cbn [fst snd]. ring.
  - apply area_eq. apply (Rmult_eq_reg_l 4); [|lra]. rewrite !area_sq. destruct p as [[px py] pz], q as [[qx qy] qz], r as [[rx ry] rz]. unfold dot3, cross3, sub3, vx, vy, vz. cbn [fst snd]. ring.
  - intros t. apply area_eq. apply (Rmult_eq_reg_l 4); [|lra]. rewrite !area_sq. destruct p as [[px py] pz], q as [[qx qy] qz], r as [[rx ry] rz], t as [[tx ty] tz]. unfold dot3, cross3, sub3, add3, vx, vy, vz. cbn [fst snd]. ring.
  - split.
    + intros H. pose proof (area_sq p q r) as E. rewrite H in E. destruct p as [[px py] pz], q as [[qx qy] qz], r as [[rx ry] rz]. unfold dot3, cross3, sub3, add3, scal3, vx, vy, vz in *. cbn [fst snd] in *.
      set (ux := qx - px) in *. set (uy := qy - py) in *. set (uz := qz - pz) in *. set (wx := rx - px) in *. set (wy := ry - py) in *. set (wz := rz - pz) in *.
      destruct (three_sq (uy * wz - uz * wy) (uz * wx - ux * wz) (ux * wy - uy * wx)) as (X1 & X2 & X3); [lra|].
      destruct (Req_dec (ux * ux + uy * uy + uz * uz) 0) as [Z|NZ].
      * left. apply three_sq in Z. destruct Z as (Z1 & Z2 & Z3). unfold ux, uy, uz in *. repeat f_equal; lra.
      * right. set (n := ux * ux + uy * uy + uz * uz) in *. set (d := ux * wx + uy * wy + uz * wz). exists (d / n).
        assert (W : forall u w, n * w = d * u -> w = d / n * u) by (intros u w E1; apply (Rmult_eq_reg_l n); auto; rewrite E1; field; auto).
        assert (Wx : wx = d / n * ux).
        { apply W. transitivity (d * ux - uy * (ux * wy - uy * wx) + uz * (uz * wx - ux * wz)); [unfold n, d; ring|rewrite X2, X3; ring]. }
        assert (Wy : wy = d / n * uy).
        { apply W. transitivity (d * uy + ux * (ux * wy - uy * wx) - uz * (uy * wz - uz * wy)); [unfold n, d; ring|rewrite X1, X3; ring]. }
        assert (Wz : wz = d / n * uz).
        { apply W. transitivity (d * uz - ux * (uz * wx - ux * wz) + uy * (uy * wz - uz * wy)); [unfold n, d; ring|rewrite X1, X2; ring]. }
        rewrite <- Wx, <- Wy, <- Wz. unfold wx, wy, wz. repeat f_equal; ring.
    + intros H. apply Rsqr_0_uniq. apply (Rmult_eq_reg_l 4); [|lra]. replace (4 * Rsqr (area_triangle p q r)) with (4 * area_triangle p q r ^ 2) by (unfold Rsqr; ring). rewrite area_sq, Rmult_0_r.
      destruct H as [-> |[s ->]]; [destruct q as [[qx qy] qz], r as [[rx ry] rz]|destruct p as [[px py] pz], q as [[qx qy] qz]]; unfold dot3, cross3, sub3, add3, scal3, vx, vy, vz; cbn [fst snd]; ring.
Qed.

(** * subband_levels *)
Lemma level_ok w fs e N : 0 < w -> 0 < fs -> 0 <= e -> subband_level w fs e N false = Some (sqrt (fs * e / (2 * w))) /\ subband_level w fs e N true = Some (fs * e / (2 * w * INR N)) \/ N = 0%nat.
Proof.
  intros Hw Hf He. destruct N as [|N]; [right; reflexivity|left]. assert (HN : INR (S N) <> 0) by (apply not_0_INR; lia). unfold subband_level. replace (Reqb w 0) with false by (symmetry; apply Reqb_false; lra). cbv zeta.
  replace (1 / w * fs / 2 * e) with (fs * e / (2 * w)) by (field; lra). replace (Rltb (fs * e / (2 * w)) 0) with false.
  - split; [reflexivity|]. f_equal. field. split; auto. lra.
  - symmetry. apply Rltb_false. apply Rmult_le_pos; [nra|]. apply Rlt_le, Rinv_0_lt_compat. lra.
Qed.
Theorem levels_value x width fs ax : 0 < fs -> (forall w, In w width -> 0 < w) -> (0 < cnc x)%nat -> length width = lanes x ax \/ length width = 1%nat ->
  exists L P, subband_levels_axis x width fs false ax = Ok L /\ subband_levels_axis x width fs true ax = Ok P /\ length L = lanes x ax /\ length P = lanes x ax /\
    forall i, (i < lanes x ax)%nat -> let w := band_width width (lanes x ax) i in let e := power_sum (lane x ax i) in
      nth i L None = Some (sqrt (fs * e / (2 * w))) /\ nth i P None = Some (fs * e / (2 * w * INR (cnc x))) /\
      (ax = Cols -> forall r, rms_of (lane x ax i) r -> nth i P None = Some (fs / (2 * w) * r ^ 2)).
Proof.
  intros Hf Hw Hc Hl. unfold subband_levels_axis. destruct (Nat.eqb_spec (cnc x) 0); [lia|]. cbn [andb bind].
  assert (RM : forall i r w, (i < lanes x ax)%nat -> 0 < w -> ax = Cols -> rms_of (lane x ax i) r -> fs * power_sum (lane x ax i) / (2 * w * INR (cnc x)) = fs / (2 * w) * r ^ 2).
  { intros i r w Hi HW -> [_ E]. rewrite <- E. cbn [lane]. rewrite map_length, seq_length. assert (INR (cnc x) <> 0) by (apply not_0_INR; lia). field. split; [lra|auto]. }
  destruct (Nat.eqb_spec (length width) (lanes x ax)) as [E|E].
  - eexists. eexists. split; [reflexivity|]. split; [reflexivity|]. rewrite !map_length, !seq_length. do 2 (split; [reflexivity|]). intros i Hi. cbv zeta. set (w := band_width _ _ i). rewrite !nth_map_seq by auto. rewrite !power_sum_lsum.
    assert (W : 0 < nth i width 0) by (apply Hw, nth_In; lia). assert (EW : w = nth i width 0) by (unfold w, band_width; rewrite E, Nat.eqb_refl; reflexivity).
    destruct (level_ok (nth i width 0) fs (power_sum (lane x ax i)) (cnc x) W Hf (power_nonneg _)) as [[A B]|]; [|lia]. rewrite A, B, EW. split; auto. split; auto. intros HC r Hr. f_equal. apply RM; auto.
  - destruct width as [|w0 [|w1 ws]]; [destruct Hl; [congruence|discriminate]| |destruct Hl; [congruence|discriminate]]. eexists. eexists. split; [reflexivity|]. split; [reflexivity|]. rewrite !map_length, !seq_length. do 2 (split; [reflexivity|]). intros i Hi. cbv zeta. set (w := band_width _ _ i). rewrite !nth_map_seq by auto. rewrite !power_sum_lsum.
    assert (W : 0 < w0) by (apply Hw; left; auto). assert (EW : w = w0) by (unfold w, band_width; apply Nat.eqb_neq in E; rewrite E; reflexivity).
    destruct (level_ok w0 fs (power_sum (lane x ax i)) (cnc x) W Hf (power_nonneg _)) as [[A B]|]; [|lia]. rewrite A, B, EW. split; auto. split; auto. intros HC r Hr. f_equal. apply RM; auto.
Qed.
Theorem levels_errors x width fs ax : (cnc x = 0%nat -> subband_levels_axis x width fs true ax = Err ZeroDivisionError) /\
  ((0 < cnc x)%nat -> length width <> lanes x ax -> length width <> 1%nat -> lanes x ax <> 1%nat -> forall power, subband_levels_axis x width fs power ax = Err ValueError).
Proof.
  unfold subband_levels_axis. split.
  - intros ->. reflexivity.
  - intros Hc L1 L2 L3 power. destruct (Nat.eqb_spec (cnc x) 0); [lia|]. rewrite Bool.andb_false_r. cbn [bind]. destruct (Nat.eqb_spec (length width) (lanes x ax)); [congruence|]. destruct width as [|w [|w2 ws]]; [|cbn in L2; congruence|]; destruct (Nat.eqb_spec (lanes x ax) 1); congruence.
Qed.
(** along the rows the power is divided by the wrong count *)
Theorem rows_not_mean : exists x w fs r P, 0 < w /\ 0 < fs /\ rms_of (lane x Rows 0) r /\ subband_levels_axis x [w] fs true Rows = Ok P /\ nth 0 P None <> Some (fs / (2 * w) * r ^ 2).
Proof.
  exists (CMat 2 1 (fun _ _ => (1, 0))), 1, 2, 1. eexists. split; [lra|]. split; [lra|]. split.
  - split; [lra|]. unfold power_sum. cbn. lra.
  - split; [unfold subband_levels_axis; cbn; reflexivity|]. cbn. unfold subband_level. replace (Reqb 1 0) with false by (symmetry; apply Reqb_false; lra). unfold cabs2. cbn. intros [= H]. lra.
Qed.

(** * resample_signal *)
Section Resample.
Variable resampler : Z -> Z -> list R -> res (list R).
Lemma resample_vec_value x fs fs_new r : resampler fs fs_new x = Ok r ->
  resample_signal_vec resampler x fs fs_new Cols = Ok (Nd (if Nat.eqb (length r) 1 then [] else [length r]) r).
Proof.
  intros E. unfold resample_signal_vec, resample_signal2. cbn [rows mapM]. rewrite E. cbn [bind concat]. rewrite app_nil_r. unfold squeeze. cbn [shape data filter length]. destruct (Nat.eqb (length r) 1); reflexivity.
Qed.
Lemma mapM_F2 {A B} (f : A -> res B) l rs : Forall2 (fun a b => f a = Ok b) l rs -> mapM f l = Ok rs.
Proof. induction 1 as [|a b l rs H F IH]; [reflexivity|]. cbn. rewrite H. cbn [bind]. rewrite IH. reflexivity. Qed.
Lemma resample_rows_value x fs fs_new rs k : Forall2 (fun s r => resampler fs fs_new s = Ok r) (rows x) rs -> (2 <= length rs)%nat -> (2 <= k)%nat -> (forall r, In r rs -> length r = k) ->
  resample_signal2 resampler x fs fs_new Cols = Ok (Nd [length rs; k] (concat rs)).
Proof.
  intros F Hl Hk Hr. unfold resample_signal2. rewrite (mapM_F2 _ _ _ F). cbn [bind]. destruct rs as [|r rs]; [cbn in Hl; lia|]. rewrite (Hr r) by (left; auto). unfold squeeze. cbn [shape data filter]. 
  destruct (Nat.eqb_spec (length (r :: rs)) 1); [lia|]. destruct (Nat.eqb_spec k 1); [lia|]. reflexivity.
Qed.
Lemma resample_cols_value x fs fs_new rs k : Forall2 (fun j r => resampler fs fs_new (map (fun s => nth j s 0) (rows x)) = Ok r) (seq 0 (cols x)) rs -> (2 <= cols x)%nat -> (2 <= k)%nat -> (forall r, In r rs -> length r = k) ->
  exists d, resample_signal2 resampler x fs fs_new Rows = Ok (Nd [k; cols x] d) /\ forall i j, (i < k)%nat -> (j < cols x)%nat -> nth (i * cols x + j) d 0 = nth i (nth j rs []) 0.
Proof.
  intros F Hl Hk Hr. unfold resample_signal2.
  assert (F' : Forall2 (fun s r => resampler fs fs_new s = Ok r) (map (fun j => map (fun r => nth j r 0) (rows x)) (seq 0 (cols x))) rs) by (clear - F; induction F; cbn; constructor; auto).
  rewrite (mapM_F2 _ _ _ F'). cbn [bind]. pose proof (Forall2_length' _ _ _ F) as L. rewrite seq_length in L. clear F F'. destruct rs as [|r rs']; [cbn in L; lia|]. rewrite (Hr r) by (left; auto). set (qs := r :: rs') in *. clearbody qs.
  unfold squeeze. cbn [shape data filter]. rewrite <- L. destruct (Nat.eqb_spec k 1); [lia|]. destruct (Nat.eqb_spec (cols x) 1); [lia|]. cbn [negb]. eexists. split; [reflexivity|]. intros i j Hi Hj.
  rewrite (nth_concat_blocks _ (cols x)) by (try (rewrite map_length, seq_length); auto; intros b Hb; apply in_map_iff in Hb; destruct Hb as (q & <- & _); rewrite map_length; auto).
  rewrite nth_map_in with (d' := 0%nat) by (rewrite seq_length; auto). rewrite seq_nth by auto. cbn [Nat.add]. rewrite nth_map_in with (d' := []) by lia. reflexivity.
Qed.
Lemma resample_error x fs fs_new e pre post s : rows x = pre ++ s :: post -> (forall t, In t pre -> exists r, resampler fs fs_new t = Ok r) -> resampler fs fs_new s = Err e ->
  resample_signal2 resampler x fs fs_new Cols = Err e.
Proof.
  intros E Hp He. unfold resample_signal2. rewrite E. assert (M : mapM (resampler fs fs_new) (pre ++ s :: post) = Err e).
  { clear E. induction pre as [|t pre IH]; cbn; [rewrite He; reflexivity|]. destruct (Hp t (or_introl eq_refl)) as [r Hr]. rewrite Hr. cbn [bind]. rewrite IH by (intros; apply Hp; right; auto). reflexivity. }
  rewrite M. reflexivity.
Qed.
End Resample.
