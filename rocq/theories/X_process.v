(** Final forms of the lemmas behind C24-C32 and C66, and their examples. *)
From Verif Require Import Base BaseFacts M_utils M_sig P_sig M_process S_process
  P_proc1 P_proc2 P_proc3 P_proc4 P_proc5 P_proc6.
Open Scope R_scope.

(** ** C25 *)
Lemma lagrange_final N d (c : list R) : (length c <= N + 1)%nat ->
  length (lagrange_delay N d) = (N + 1)%nat /\
  rsum (N + 1) (fun k => nth k (lagrange_delay N d) 0 * peval c (INR k)) = peval c d.
Proof.
  intros H. split; [apply lagrange_spec|]. apply lagrange_exact.
  apply poly_le with (length c); [lia|]. exists (fun i => nth i c 0). intros x. reflexivity.
Qed.
Lemma lagrange_sum N d : rsum (N + 1) (fun k => nth k (lagrange_delay N d) 0) = 1.
Proof.
  destruct (lagrange_final N d [1]) as [_ H]; [cbn; lia|]. unfold peval in H. cbn in H.
  rewrite <- (Rmult_1_r 1). replace (1 * 1) with (0 + 1 * 1) by ring. rewrite <- H. apply rsum_ext. intros; ring.
Qed.
Lemma lagrange_delay_int N D k : (D <= N)%nat -> (k <= N)%nat ->
  nth k (lagrange_delay N (INR D)) 0 = if Nat.eqb k D then 1 else 0.
Proof. intros. rewrite lagrange_impulse by auto. unfold delta. reflexivity. Qed.

(** ** C26 *)
Lemma clip_final g t i j : 0 < t -> (i < length g)%nat -> (j < length g)%nat ->
  let o := gain_clipping g t in
  length o = length g /\
  (nth i g 0 <= t -> nth i o 0 = nth i g 0) /\
  (t < nth i g 0 -> t < nth i o 0 < 2 * t) /\
  nth i o 0 <= nth i g 0 /\
  (nth i g 0 < nth j g 0 -> nth i o 0 < nth j o 0).
Proof.
  intros Ht Hi Hj o. unfold o, gain_clipping. rewrite map_length.
  rewrite (nth_map_in (clip1 t) g i 0 0), (nth_map_in (clip1 t) g j 0 0) by auto.
  split; auto. split; [apply clip1_low; auto|]. split; [intros; apply clip1_range; auto|].
  split; [|apply clip1_incr; auto].
  destruct (Rle_lt_dec (nth i g 0) t) as [L|L].
  - rewrite clip1_low; auto. lra.
  - destruct (clip1_range t (nth i g 0) Ht L). lra.
Qed.

(** ** C27 *)
Lemma chan_rms_col a j : chan_rms a j = col_rms a j.
Proof. unfold chan_rms, col_rms. do 2 f_equal. apply rsum_ext. intros. ring. Qed.
Lemma loudness_max_rms a L : (0 < nc a)%nat -> (loudness a = Ok L <-> max_rms a L).
Proof.
  intros Hc. destruct (loudness_max a Hc) as (L' & E & (j & Hj & Ej) & M). split.
  - intros H. rewrite E in H. injection H as <-. split.
    + exists j. rewrite chan_rms_col. auto.
    + intros k Hk. rewrite chan_rms_col. auto.
  - intros [(k & Hk & Ek) M']. rewrite E. f_equal. rewrite chan_rms_col in Ek. apply Rle_antisym.
    + rewrite <- Ej, <- chan_rms_col. auto.
    + rewrite <- Ek. auto.
Qed.
Lemma peak_abs_peak a p : (0 < nr a)%nat -> (0 < nc a)%nat -> peak_abs a = Ok p -> peak a p.
Proof.
  intros Hr Hc E. destruct (peak_max a Hr Hc) as (p' & E' & A & B). rewrite E in E'. injection E' as <-.
  split; auto.
Qed.
Lemma match_loudness_final a t La Lt :
  (0 < nr a)%nat -> (0 < nc a)%nat -> (0 < nr t)%nat -> (0 < nc t)%nat ->
  max_rms a La -> max_rms t Lt -> 0 < La -> 0 < Lt ->
  exists out s, match_loudness a t = Ok (Some out) /\ 0 < s /\
    nr out = nr a /\ nc out = nc a /\
    (forall i j, (i < nr a)%nat -> (j < nc a)%nat -> ent out i j = s * ent a i j) /\
    (forall i j, (i < nr a)%nat -> (j < nc a)%nat -> Rabs (ent out i j) <= 1) /\
    (max_rms out Lt \/ (peak out 1 /\ exists L, max_rms out L /\ L < Lt)).
Proof.
  intros H1 H2 H3 H4 Ha Ht Pa Pt. apply loudness_max_rms in Ha, Ht; auto.
  destruct (match_loudness_spec a t La Lt) as (out & s & E & S & R & C & V & P & D); auto.
  exists out, s. repeat (split; [assumption|]). destruct D as [D|(D & L & E2 & LL)].
  - left. apply loudness_max_rms; auto. lia.
  - right. split; [apply peak_abs_peak; auto; lia|]. exists L. split; auto. apply loudness_max_rms; auto. lia.
Qed.
Lemma match_loudness_silent a t : (0 < nr a)%nat -> (0 < nc a)%nat -> (0 < nr t)%nat -> (0 < nc t)%nat ->
  (forall i j, ent a i j = 0) -> match_loudness a t = Ok None.
Proof.
  intros H1 H2 H3 H4 Z. unfold match_loudness.
  destruct (Nat.eqb_spec (nr a) 0); [lia|]. destruct (Nat.eqb_spec (nr t) 0); [lia|]. cbn [orb].
  destruct (loudness_max a H2) as (L & E & (j & Hj & Ej) & M). rewrite E. cbn [bind].
  destruct (loudness_max t H4) as (Lt & Et & _). rewrite Et. cbn [bind].
  replace L with 0; [unfold Reqb; destruct (Req_EM_T 0 0); [auto|congruence]|].
  rewrite <- Ej. unfold col_rms. rewrite rsum_0 by (intros; rewrite Z; ring).
  unfold Rdiv. rewrite Rmult_0_l, sqrt_0. auto.
Qed.

(** ** C28 *)
Lemma mapM_nth {A B} (f : A -> res B) (g : A -> B) l : (forall x, In x l -> f x = Ok (g x)) -> mapM f l = Ok (map g l).
Proof.
  induction l as [|x l IH]; intros H; cbn; auto. rewrite H by (left; auto). cbn.
  rewrite IH by (intros; apply H; right; auto). reflexivity.
Qed.
Lemma mapM_exists {A B} (f : A -> res B) l (Q : A -> B -> Prop) :
  (forall x, In x l -> exists y, f x = Ok y /\ Q x y) -> exists r, mapM f l = Ok r /\ Forall2 Q l r.
Proof.
  induction l as [|x l IH]; intros H; cbn.
  - exists []. auto.
  - destruct (H x (or_introl eq_refl)) as (y & -> & Qy). cbn.
    destruct IH as (r & -> & F); [intros; apply H; right; auto|]. cbn. exists (y :: r). auto.
Qed.
Lemma Forall2_seq {B} (Q : nat -> B -> Prop) n r d : Forall2 Q (seq 0 n) r ->
  length r = n /\ forall i, (i < n)%nat -> Q i (nth i r d).
Proof.
  intros H. assert (G : forall a m (r : list B), Forall2 Q (seq a m) r -> length r = m /\ forall i, (i < m)%nat -> Q (a + i)%nat (nth i r d)).
  { clear. intros a m; revert a. induction m as [|m IH]; intros a r H; inversion H; subst.
    - split; auto. intros; lia.
    - destruct (IH _ _ H4) as [L N]. split; [cbn; lia|]. intros [|i] Hi; cbn [nth].
      + rewrite Nat.add_0_r. auto.
      + rewrite Nat.add_succ_r. apply (N i). lia. }
  apply G in H. exact H.
Qed.

Lemma smoothing_final (a : list R) n wt : 0 < n ->
  exists out, frac_octave_smoothing (Nd [length a] a) n wt = Ok (map Some out) /\
    length out = length a /\
    forall idx, (idx < length a)%nat ->
      in_window (half_step n) idx idx /\
      weighted_mean a (in_window (half_step n) idx) (nth idx out 0).
Proof.
  intros Hn. unfold frac_octave_smoothing.
  unfold Reqb at 1. destruct (Req_EM_T n 0); [lra|].
  assert (E1 : exists b, asarray_1d (Nd [length a] a) = Ok b /\ data b = a).
  { unfold asarray_1d, squeeze. cbn [shape filter data].
    destruct (Nat.eqb (length a) 1); cbn [negb length Nat.eqb Nat.ltb Nat.leb]; eexists; split; reflexivity. }
  destruct E1 as (b & -> & Eb). cbn [bind]. rewrite Eb.
  fold (smooth_factor n) (half_step n).
  pose proof (smooth_factor_gt1 n Hn) as Hc. change (half_step n) with (smooth_factor n).
  set (c := smooth_factor n) in *.
  destruct (mapM_exists (smooth_at a c wt) (seq 0 (length a))
    (fun idx o => exists v, o = Some v /\ in_window c idx idx /\ weighted_mean a (in_window c idx) v)) as (r & E & F).
  { intros idx Hi. apply in_seq in Hi.
    destruct (smooth_at_spec a c wt idx Hc ltac:(lia)) as (v & w & E & W & S & V).
    exists (Some v). split; auto. exists v. split; auto.
    assert (IFF : forall j, (j < length a)%nat ->
      ((Z.leb (smooth_lo c idx) (Z.of_nat j) && Z.ltb (Z.of_nat j) (smooth_hi c (length a) idx))%bool = true <->
       in_window c idx j)).
    { intros j Hj. rewrite Bool.andb_true_iff, Z.leb_le, Z.ltb_lt.
      rewrite (smooth_window_iff c (length a) idx j Hc ltac:(lia) Hj). unfold in_window.
      destruct idx as [|idx]; cbn [Nat.eqb]; [reflexivity|]. split; intros [A B]; split; lra. }
    split.
    - apply IFF; [lia|]. destruct (smooth_bounds c (length a) idx Hc ltac:(lia)) as [[L0 L1] [H0 H1]].
      apply Bool.andb_true_iff. rewrite Z.leb_le, Z.ltb_lt. lia.
    - exists w. split; [|split; [|split]]; auto.
      + intros j Hj HW. apply IFF in HW; auto. specialize (W j Hj). rewrite HW in W. auto.
      + intros j Hj HW. specialize (W j Hj).
        destruct (Z.leb (smooth_lo c idx) (Z.of_nat j) && Z.ltb (Z.of_nat j) (smooth_hi c (length a) idx))%bool eqn:T; auto.
        exfalso. apply HW. apply IFF; auto. }
  destruct (Forall2_seq _ _ _ None F) as [Lr N].
  exists (map (fun o => match o with Some v => v | None => 0 end) r).
  split; [rewrite E; f_equal; rewrite map_map|split].
  - rewrite <- (map_id r) at 1. apply map_ext_in. intros o Ho. destruct (In_nth _ _ None Ho) as (i & Hi & Ei).
    destruct (N i ltac:(lia)) as (v & Ev & _). rewrite Ei in Ev. rewrite Ev. reflexivity.
  - rewrite map_length. auto.
  - intros idx Hi. rewrite (nth_map_in _ r idx 0 None) by lia.
    destruct (N idx Hi) as (v & -> & A & B). auto.
Qed.

Lemma smoothing_zero a wt : frac_octave_smoothing a 0 wt = Err ZeroDivisionError.
Proof. unfold frac_octave_smoothing, Reqb. destruct (Req_EM_T 0 0); [auto|congruence]. Qed.

(** constants are kept; the output lies between the extremes of the window *)
Lemma weighted_mean_bounds a W v lo hi : weighted_mean a W v ->
  (forall j, (j < length a)%nat -> W j -> lo <= nth j a 0 <= hi) ->
  (forall j, (j < length a)%nat -> W j \/ ~ W j) -> lo <= v <= hi.
Proof.
  intros (w & P & Z & S & ->) H D.
  assert (G : forall j, (j < length a)%nat -> w j * lo <= w j * nth j a 0 <= w j * hi).
  { intros j Hj. destruct (D j Hj) as [T|T].
    - specialize (P j Hj T). specialize (H j Hj T). nra.
    - rewrite (Z j Hj T). lra. }
  assert (L : rsum (length a) (fun j => w j * lo) = lo) by (rewrite rsum_scal_r, S; ring).
  assert (U : rsum (length a) (fun j => w j * hi) = hi) by (rewrite rsum_scal_r, S; ring).
  split; [rewrite <- L at 1|rewrite <- U]; apply rsum_le; intros; apply G; auto.
Qed.
Lemma in_window_dec c idx j : in_window c idx j \/ ~ in_window c idx j.
Proof.
  unfold in_window. destruct idx as [|idx].
  - destruct (Nat.eq_dec j 0); auto.
  - destruct (Rlt_dec (INR (S idx) / c - 1) (INR j)), (Rlt_dec (INR j) (INR (S idx) * c)); tauto.
Qed.

(** ** C29 *)
Lemma half_hann_final N : (3 <= N)%Z ->
  exists w, half_sided_Hann N = Ok w /\ Z.of_nat (length w) = (N + 1)%Z /\
    (forall i, (i < length w)%nat -> 0 < nth i w 0 <= 1) /\
    (forall i j, (i <= j < length w)%nat -> nth j w 0 <= nth i w 0) /\
    (forall i, (2 * Z.of_nat i <= N + 2)%Z -> nth i w 0 = 1) /\
    nth (length w - 1) w 0 < 1.
Proof.
  intros HN. destruct (half_hann_spec N HN) as (w & E & L & V). cbv zeta in V.
  set (H := ((N + 1) / 2)%Z) in *.
  assert (HH : (2 * H <= N + 1 < 2 * H + 2)%Z).
  { unfold H. pose proof (Z.div_mod (N + 1) 2 ltac:(lia)). pose proof (Z.mod_pos_bound (N + 1) 2 ltac:(lia)). lia. }
  assert (HP : 0 < IZR H) by (apply IZR_lt; lia). pose proof PI_RGT_0.
  assert (LZ : Z.of_nat (length w) = (N + 1)%Z) by lia.
  (* the angle *)
  assert (A : forall i, (i < length w)%nat -> (N + 2 - H <= Z.of_nat i)%Z ->
     0 < PI * IZR (Z.of_nat i - (N + 1 - H)) / IZR H < PI).
  { intros i Hi Hl. assert (0 < IZR (Z.of_nat i - (N + 1 - H))) by (apply IZR_lt; lia).
    assert (IZR (Z.of_nat i - (N + 1 - H)) < IZR H) by (apply IZR_lt; lia). split.
    - apply Rdiv_lt_0_compat; auto. apply Rmult_lt_0_compat; auto.
    - apply Rmult_lt_reg_r with (IZR H); auto. unfold Rdiv. rewrite Rmult_assoc, Rinv_l by lra. nra. }
  assert (CB : forall x, 0 < x < PI -> -1 < cos x < 1).
  { intros x [X1 X2]. split.
    - rewrite <- cos_PI. apply cos_decreasing_1; lra.
    - rewrite <- cos_0. apply cos_decreasing_1; lra. }
  exists w. split; auto. split; auto. split; [|split; [|split]].
  - intros i Hi. rewrite V by auto. destruct (Z.leb_spec (N + 2 - H) (Z.of_nat i)) as [T|T]; [|lra].
    destruct (CB _ (A i Hi T)). lra.
  - intros i j Hij. rewrite !V by lia.
    destruct (Z.leb_spec (N + 2 - H) (Z.of_nat i)) as [T|T]; destruct (Z.leb_spec (N + 2 - H) (Z.of_nat j)) as [T2|T2]; try lia; try lra.
    + destruct (A i ltac:(lia) T), (A j ltac:(lia) T2).
      assert (PI * IZR (Z.of_nat i - (N + 1 - H)) / IZR H <= PI * IZR (Z.of_nat j - (N + 1 - H)) / IZR H).
      { apply Rmult_le_compat_r; [left; apply Rinv_0_lt_compat; auto|].
        apply Rmult_le_compat_l; [lra|]. apply IZR_le. lia. }
      assert (cos (PI * IZR (Z.of_nat j - (N + 1 - H)) / IZR H) <= cos (PI * IZR (Z.of_nat i - (N + 1 - H)) / IZR H))
        by (apply cos_decr_1; lra). lra.
    + destruct (CB _ (A j ltac:(lia) T2)). lra.
  - intros i Hi. rewrite V by lia. destruct (Z.leb_spec (N + 2 - H) (Z.of_nat i)) as [T|T]; auto.
    assert (i2 : (2 * Z.of_nat i >= 2 * N + 4 - 2 * H)%Z) by lia. exfalso. lia.
  - rewrite V by lia. destruct (Z.leb_spec (N + 2 - H) (Z.of_nat (length w - 1))) as [T|T]; [|lia].
    destruct (CB _ (A (length w - 1)%nat ltac:(lia) T)). lra.
Qed.
Lemma half_hann_short N : (N < 3)%Z -> half_sided_Hann N = Err AssertionError.
Proof. intros H. unfold half_sided_Hann. destruct (Z.leb_spec 3 N); [lia|]. reflexivity. Qed.

(** ** C30 *)
Lemma trapz_nonneg q : (forall x, In x q -> 0 <= x) -> 0 <= trapz q.
Proof.
  induction q as [|x [|y q] IH]; intros H; cbn [trapz]; try lra.
  assert (0 <= x) by (apply H; left; auto). assert (0 <= y) by (apply H; right; left; auto).
  assert (0 <= trapz (y :: q)) by (apply IH; intros; apply H; right; auto).
  cbn [trapz] in *. lra.
Qed.
Lemma trapz_zero q : (forall x, In x q -> 0 <= x) -> (2 <= length q)%nat -> trapz q = 0 -> forall x, In x q -> x = 0.
Proof.
  induction q as [|x [|y q] IH]; intros H L E; cbn [length] in L; try lia.
  assert (0 <= x) by (apply H; left; auto). assert (0 <= y) by (apply H; right; left; auto).
  assert (T : 0 <= trapz (y :: q)) by (apply trapz_nonneg; intros; apply H; right; auto).
  assert (E2 : trapz (x :: y :: q) = (x + y) / 2 + trapz (y :: q)) by reflexivity.
  rewrite E2 in E.
  intros z [<-|Hz]; [lra|]. destruct q as [|w q].
  - destruct Hz as [<-|[]]. lra.
  - apply IH; auto; [intros; apply H; right; auto|cbn; lia|lra].
Qed.
Lemma sq_in (p : list R) x : In x (map (fun y => y ^ 2) p) -> 0 <= x.
Proof. intros H. apply in_map_iff in H. destruct H as (y & <- & _). apply pow2_ge_0. Qed.

Lemma energy_decay_none p : energy_decay p = None <-> ((length p <= 1)%nat \/ forall x, In x p -> x = 0).
Proof.
  unfold energy_decay. set (q := map (fun x => x ^ 2) p).
  assert (Lq : length q = length p) by (unfold q; apply map_length).
  unfold Reqb at 1. destruct (Req_EM_T (trapz q) 0) as [E|E]; split; intros H; auto; try discriminate.
  - destruct (Nat.le_gt_cases (length p) 1) as [L|L]; auto. right. intros x Hx.
    assert (Z : x ^ 2 = 0).
    { apply (trapz_zero q); auto; [intros y; apply sq_in|lia|]. apply in_map_iff. eauto. }
    nra.
  - exfalso. apply E. destruct H as [H|H].
    + destruct q as [|a [|b q']]; cbn in Lq; cbn; auto. lia.
    + assert (Z : forall x, In x q -> x = 0).
      { intros x Hx. apply in_map_iff in Hx. destruct Hx as (y & <- & Hy). rewrite (H y Hy). ring. }
      clear - Z. induction q as [|a [|b q'] IH]; auto.
      change (trapz (a :: b :: q')) with ((a + b) / 2 + trapz (b :: q')).
      rewrite IH by (intros; apply Z; right; auto).
      rewrite (Z a) by (left; auto). rewrite (Z b) by (right; left; auto). field.
Qed.

Lemma rsum_lsum_tail (p : list R) i : (i <= length p)%nat ->
  lsum (skipn i (map (fun x => x ^ 2) p)) = rsum (length p - i) (fun k => nth (i + k) p 0 ^ 2).
Proof.
  revert i; induction p as [|x p IH]; intros i Hi.
  - cbn in Hi. replace i with 0%nat by lia. reflexivity.
  - destruct i as [|i]; cbn [skipn map].
    + cbn [lsum length]. rewrite Nat.sub_0_r, rsum_shift. cbn [plus nth]. f_equal.
      specialize (IH 0%nat ltac:(lia)). cbn [skipn] in IH. rewrite IH, Nat.sub_0_r. reflexivity.
    + cbn [length] in *. rewrite IH by lia. reflexivity.
Qed.

Lemma energy_decay_final p d : energy_decay p = Some d ->
  length d = length p /\
  (forall i j, (i <= j < length p)%nat -> dB_le (nth j d None) (nth i d None)) /\
  (forall i, (i < length p)%nat ->
     (nth i d None = None <-> forall k, (i <= k < length p)%nat -> nth k p 0 = 0)) /\
  exists v, nth 0 d None = Some v /\ 0 <= v /\ (v = 0 <-> nth 0 p 0 = 0 /\ last p 0 = 0).
Proof.
  unfold energy_decay. set (q := map (fun x => x ^ 2) p).
  assert (Lq : length q = length p) by (unfold q; apply map_length).
  assert (Q0 : forall x, In x q -> 0 <= x) by (intros x; apply sq_in).
  unfold Reqb at 1. destruct (Req_EM_T (trapz q) 0) as [E|E]; [discriminate|]. intros [= <-].
  set (a := trapz q) in *. assert (A : 0 < a).
  { pose proof (trapz_nonneg q Q0). unfold a in *. lra. }
  assert (L : length (tail_sums q) = length p) by (rewrite length_tail_sums; auto).
  set (F := fun b => if Reqb b 0 then None else Some (10 * log10 (b / a))).
  assert (N : forall i, (i < length p)%nat -> nth i (map F (tail_sums q)) None = F (lsum (skipn i q))).
  { intros i Hi. rewrite (nth_map_in _ _ i None 0) by lia. rewrite nth_tail_sums. auto. }
  assert (P0 : forall i, 0 <= lsum (skipn i q)).
  { intros i. rewrite <- (firstn_skipn i q) in Q0.
    assert (Q1 : forall x, In x (skipn i q) -> 0 <= x) by (intros; apply Q0; apply in_or_app; auto).
    clear - Q1. induction (skipn i q) as [|x l IH]; cbn [lsum]; [lra|].
    assert (0 <= x) by (apply Q1; left; auto). assert (0 <= lsum l) by (apply IH; intros; apply Q1; right; auto). lra. }
  split; [rewrite map_length; auto|]. split; [|split].
  - intros i j Hij. rewrite !N by lia.
    pose proof (tail_sums_decr q i j Q0 ltac:(lia)) as D. pose proof (P0 j) as Pj.
    unfold F, Reqb, dB_le. destruct (Req_EM_T (lsum (skipn j q)) 0); auto.
    destruct (Req_EM_T (lsum (skipn i q)) 0) as [Z|Z]; [lra|].
    apply Rmult_le_compat_l; [lra|]. apply log10_le.
    + apply Rdiv_lt_0_compat; lra.
    + apply Rmult_le_compat_r; auto. left. apply Rinv_0_lt_compat; auto.
  - intros i Hi. rewrite N by auto. unfold q. rewrite rsum_lsum_tail by lia.
    unfold F, Reqb. destruct (Req_EM_T _ 0) as [Z|Z]; split; intros H; auto; try discriminate.
    + intros k Hk. pose proof (rsum_nonneg_0 _ _ (fun i _ => pow2_ge_0 _) Z (k - i)%nat ltac:(lia)) as T.
      cbn beta in T. replace (i + (k - i))%nat with k in T by lia. nra.
    + exfalso. apply Z. apply rsum_0. intros k Hk. rewrite H by lia. ring.
  - destruct p as [|x p]; [exfalso; apply E; reflexivity|].
    specialize (N 0%nat ltac:(cbn; lia)). cbn [skipn] in N. rewrite N.
    assert (T : a = lsum q - (x ^ 2 + last q 0) / 2).
    { unfold a, q. cbn [map]. apply trapz_lsum. }
    assert (La : last q 0 = last (x :: p) 0 ^ 2).
    { unfold q. clear. revert x. induction p as [|y p IH]; intros x; auto.
      cbn [map last] in *. apply IH. }
    rewrite La in T. set (z := last (x :: p) 0) in *.
    pose proof (pow2_ge_0 x). pose proof (pow2_ge_0 z).
    assert (S0 : lsum q <> 0) by lra.
    unfold F, Reqb. destruct (Req_EM_T (lsum q) 0); [lra|].
    exists (10 * log10 (lsum q / a)). split; auto.
    assert (R1 : 1 <= lsum q / a).
    { apply Rmult_le_reg_r with a; auto. unfold Rdiv. rewrite Rmult_assoc, Rinv_l by lra. lra. }
    assert (G := log10_le 1 (lsum q / a) ltac:(lra) R1). rewrite log10_1 in G. split; [lra|].
    cbn [nth]. split.
    + intros Z. destruct (Rle_lt_or_eq_dec _ _ R1) as [Lt|Eq].
      * apply log10_lt in Lt; [|lra]. rewrite log10_1 in Lt. lra.
      * assert (a = lsum q).
        { replace (lsum q) with (lsum q / a * a) by (field; lra). rewrite <- Eq. ring. }
        assert (x ^ 2 = 0 /\ z ^ 2 = 0) as [X Y] by lra. split; nra.
    + intros [X Y]. replace (lsum q / a) with 1.
      * rewrite log10_1. ring.
      * rewrite T, X, Y. field. lra.
Qed.

(** ** C31 *)
Lemma pulsed_noise_pause randn pink tn tp tp' fs reps tf pk nm :
  pulsed_noise randn pink tn tp fs reps tf pk nm = pulsed_noise randn pink tn tp' fs reps tf pk nm.
Proof. reflexivity. Qed.

Lemma pulsed_noise_final randn pink tn tp fs reps tf (pk : bool) n mn L :
  py_int (IZR fs * tn) = Z.of_nat n -> py_int (IZR fs * tf) = Z.of_nat mn ->
  (forall i, length (if pk then pink (randn i n) else randn i n) = L) -> (1 <= mn <= L)%nat ->
  exists s, pulsed_noise randn pink tn tp fs reps tf pk false = Ok (Some s) /\
    length s = (reps * (L + n))%nat /\
    forall i, (i < reps)%nat ->
      (forall j, (L <= j < L + n)%nat -> nth (i * (L + n) + j) s 0 = 0) /\
      (forall j, (j < L)%nat -> exists g, 0 <= g <= 1 /\
         nth (i * (L + n) + j) s 0 = g * nth j (if pk then pink (randn i n) else randn i n) 0 /\
         ((mn <= j)%nat -> (j < L - mn)%nat -> g = 1) /\
         (j = 0%nat -> g = 0) /\ ((2 <= mn)%nat -> j = (L - 1)%nat -> g = 0)).
Proof.
  intros Hn Hm HL Hmn. unfold pulsed_noise.
  destruct (pulses randn pink tn tp fs tf pk n mn L reps Hn Hm HL Hmn) as (ps & E & Lp & B & V).
  rewrite E. cbn [bind]. exists (concat ps). split; auto.
  split; [rewrite (length_concat_blocks ps (L + n)) by auto; rewrite Lp; auto|].
  intros i Hi. destruct (V i Hi) as [V1 V2]. split; intros j Hj.
  - rewrite nth_concat_blocks by (auto; lia). apply V2. auto.
  - exists (fade_gain mn L j). split; [apply fade_gain_range|].
    rewrite nth_concat_blocks by (auto; lia). rewrite V1 by auto.
    split; [unfold raw_noise; ring|]. split; [|split].
    + intros H1 H2. unfold fade_gain. destruct (Nat.ltb_spec j mn); [lia|].
      destruct (Nat.leb_spec (L - mn) j); [lia|]. ring.
    + intros ->. apply fade_gain_first. lia.
    + intros H2 ->. apply fade_gain_last. lia.
Qed.

Lemma pulsed_noise_normalized randn pink tn tp fs reps tf pk s : (0 < reps)%nat ->
  pulsed_noise randn pink tn tp fs reps tf pk false = Ok (Some s) -> (exists x, In x s /\ x <> 0) ->
  exists s' c, pulsed_noise randn pink tn tp fs reps tf pk true = Ok (Some s') /\ 0 < c /\
    s' = map (Rmult c) s /\ (forall x, In x s' -> Rabs x <= 1) /\ exists x, In x s' /\ Rabs x = 1.
Proof.
  intros Hr. unfold pulsed_noise. destruct (mapM _ _) as [ps|]; cbn [bind]; [|discriminate].
  intros [= <-] (x & Hx & X0). destruct (Nat.eqb_spec reps 0); [lia|].
  destruct (np_max_ok (map Rabs (concat ps))) as [p E].
  { destruct (concat ps); [destruct Hx|discriminate]. }
  rewrite E. cbn [bind]. destruct (np_max_spec _ _ E) as [Hp Hmax].
  assert (P : 0 < p).
  { apply Rlt_le_trans with (Rabs x); [apply Rabs_pos_lt; auto|]. apply Hmax. apply in_map. auto. }
  unfold Reqb. destruct (Req_EM_T p 0); [lra|].
  assert (IP : 0 < / p) by (apply Rinv_0_lt_compat; auto).
  exists (map (fun y => y / p) (concat ps)), (/ p). split; auto. split; auto. split; [|split].
  - apply map_ext. intros; unfold Rdiv; ring.
  - intros y Hy. apply in_map_iff in Hy. destruct Hy as (z & <- & Hz).
    unfold Rdiv. rewrite Rabs_mult, (Rabs_pos_eq (/ p)) by lra.
    assert (Rabs z <= p) by (apply Hmax; apply in_map; auto).
    apply Rmult_le_reg_r with p; auto. rewrite Rmult_assoc, Rinv_l by lra. lra.
  - apply in_map_iff in Hp. destruct Hp as (z & Ez & Hz). exists (z / p). split; [apply in_map_iff; eauto|].
    unfold Rdiv. rewrite Rabs_mult, (Rabs_pos_eq (/ p)), Ez by lra. apply Rinv_r. lra.
Qed.

(** ** C32 *)
Lemma resample_jobs (r1 : list R -> res (list R)) hl hr taps fh ft jobs cs ol or_ :
  (1 < jobs)%Z -> (0 < cs)%nat -> full_order (length hl) cs ol -> full_order (length hr) cs or_ ->
  match resample_hrirs r1 (mapM r1) hl hr taps fh ft 1 cs [] [] with
  | Ok v => resample_hrirs r1 (mapM r1) hl hr taps fh ft jobs cs ol or_ = Ok v
  | Err _ => exists e, resample_hrirs r1 (mapM r1) hl hr taps fh ft jobs cs ol or_ = Err e
  end.
Proof.
  intros Hj Hcs HL HR. unfold resample_hrirs.
  destruct (Z.eqb_spec jobs 1); [lia|]. destruct (Z.ltb_spec 1 jobs); [|lia].
  cbn [Z.eqb Pos.eqb].
  destruct (mapM r1 hl) as [l|e] eqn:El; cbn [bind].
  - rewrite (pool_starmap_ok r1 cs hl l ol Hcs El HL). cbn [bind].
    destruct (mapM r1 hr) as [r|e] eqn:Er; cbn [bind].
    + rewrite (pool_starmap_ok r1 cs hr r or_ Hcs Er HR). cbn [bind].
      rewrite !map_map. reflexivity.
    + destruct (pool_starmap_err r1 cs hr e or_ Hcs Er HR) as [e' ->]. cbn. eauto.
  - destruct (pool_starmap_err r1 cs hl e ol Hcs El HL) as [e' ->]. cbn. eauto.
Qed.

Lemma resample_no_jobs r1 r2 hl hr taps fh ft jobs cs ol or_ : (jobs <= 0)%Z ->
  let z := map (map Some) (zeros2 (length hl) (Z.to_nat (py_int (IZR taps * IZR ft / IZR fh)))) in
  resample_hrirs r1 r2 hl hr taps fh ft jobs cs ol or_ = Ok (z, z, ft).
Proof.
  intros H. unfold resample_hrirs. destruct (Z.eqb_spec jobs 1); [lia|].
  destruct (Z.ltb_spec 1 jobs); [lia|]. reflexivity.
Qed.

(** ** C24 *)
Lemma filterbank_final n N_out fs f_low f_high mode overlap slope M k P :
  1 <= n -> (1 <= N_out)%nat -> (0 < fs)%Z -> 0 < f_low -> 0 <= overlap <= 1 / 2 ->
  band_count n f_low (Rmin f_high (IZR (fs / 2))) M ->
  transitions N_out (IZR fs) n f_low overlap M k P -> separated N_out M k P ->
  mode <> OtherMode ->
  exists fuel0 g ff, (forall fuel, (fuel0 <= fuel)%nat ->
    frac_octave_filterbank fuel n N_out fs f_low (Some f_high) mode overlap slope = Ok (g, ff)) /\
    length g = S M /\ (forall r, (r < S M)%nat -> length (nth r g []) = N_out) /\
    forall j, (j < N_out)%nat ->
      (forall r, (r < S M)%nat -> 0 <= nth j (nth r g []) 0 <= 1) /\
      match mode with
      | Energy => rsum (S M) (fun r => nth j (nth r g []) 0 ^ 2) = 1
      | _ => rsum (S M) (fun r => nth j (nth r g []) 0) = 1
      end.
Proof.
  intros H1 H2 H3 H4 H5 H6 H7 H8 H9.
  destruct (filterbank_ok n N_out fs f_low (Some f_high) mode overlap slope M k P H1 H2 H3 H4 H5 H6 H7 H8 H9)
    as (fuel0 & g & ff & E & Lg & Lr & _ & V).
  exists fuel0, g, ff. split; auto.
Qed.

Lemma filterbank_default n N_out fs f_low mode overlap slope M k P :
  1 <= n -> (1 <= N_out)%nat -> (0 < fs)%Z -> 0 < f_low -> 0 <= overlap <= 1 / 2 ->
  band_count n f_low (IZR (fs / 2)) M ->
  transitions N_out (IZR fs) n f_low overlap M k P ->
  20 <= 9 * (edge N_out (IZR fs) n f_low 0 * (half_step n - 1)) ->
  (forall i, (i < M)%nat -> (k i + P i < N_out)%nat) ->
  mode <> OtherMode ->
  exists fuel0 g ff, (forall fuel, (fuel0 <= fuel)%nat ->
    frac_octave_filterbank fuel n N_out fs f_low None mode overlap slope = Ok (g, ff)) /\
    length g = S M /\ (forall r, (r < S M)%nat -> length (nth r g []) = N_out) /\
    forall j, (j < N_out)%nat ->
      (forall r, (r < S M)%nat -> 0 <= nth j (nth r g []) 0 <= 1) /\
      match mode with
      | Energy => rsum (S M) (fun r => nth j (nth r g []) 0 ^ 2) = 1
      | _ => rsum (S M) (fun r => nth j (nth r g []) 0) = 1
      end.
Proof.
  intros H1 H2 H3 H4 H5 H6 H7 H8 H9 H10.
  assert (Hfs : 0 < IZR fs) by (apply IZR_lt; auto).
  destruct (filterbank_ok n N_out fs f_low None mode overlap slope M k P H1 H2 H3 H4 H5 H6 H7)
    as (fuel0 & g & ff & E & Lg & Lr & _ & V); auto.
  { split; auto. intros i Hi. apply (separated_suff N_out (IZR fs) n f_low overlap M k P); auto. }
  exists fuel0, g, ff. split; auto.
Qed.

Lemma filterbank_limits fuel n N_out fs f_low f_high mode overlap slope M g ff :
  0 < n -> 0 < f_low -> band_count n f_low (eff_high fs f_high) M ->
  frac_octave_filterbank fuel n N_out fs f_low f_high mode overlap slope = Ok (g, ff) ->
  length ff = S M /\ lim_lo (nth 0 ff (0, 0, 0)) = 0 /\
  lim_hi (nth M ff (0, 0, 0)) = IZR fs / 2 /\
  (forall b, (b < M)%nat -> lim_hi (nth b ff (0, 0, 0)) = lim_lo (nth (S b) ff (0, 0, 0))).
Proof.
  intros Hn Hf HM E. unfold frac_octave_filterbank in E. fold (eff_high fs f_high) in E.
  destruct (assert_ _); cbn [bind] in E; [|discriminate].
  destruct (fo_centres fuel n f_low (eff_high fs f_high)) as [fcs|e] eqn:Efc; cbn [bind] in E; [|discriminate].
  pose proof (centres_value _ n f_low _ fcs M Hn Hf Efc HM) as V.
  destruct (fo_bands _ _ _ _); cbn [bind] in E; [|discriminate].
  assert (Eff : ff = fo_limits n (IZR fs) (map (centre n f_low) (seq 0 M))).
  { destruct mode; cbn [bind] in E; try discriminate; injection E as _ <-; rewrite V; auto. }
  assert (M1 : (1 <= M)%nat) by (destruct HM; auto).
  destruct (limits_entries n (IZR fs) f_low M M1) as (A & B & C & D & F). rewrite <- Eff in *.
  split; [|split; [|split]]; auto.
  - rewrite Eff. rewrite length_limits; [rewrite map_length, seq_length; auto|].
    destruct M; [lia|discriminate].
  - intros b Hb. rewrite C by auto. destruct b as [|b]; [auto|].
    rewrite D by auto. symmetry. apply half_step_next. auto.
Qed.

Lemma filterbank_terminates n N_out fs f_low f_high mode overlap slope : 0 < n -> 0 < f_low ->
  exists fuel0, forall fuel, (fuel0 <= fuel)%nat ->
    frac_octave_filterbank fuel n N_out fs f_low f_high mode overlap slope <> Err OutOfFuel.
Proof.
  intros Hn Hf. destruct (centres_terminate n f_low (eff_high fs f_high) Hn Hf) as (fuel0 & F).
  exists fuel0. intros fuel Hfu. destruct (F fuel Hfu) as [fcs E].
  unfold frac_octave_filterbank. fold (eff_high fs f_high).
  destruct (assert_ (Rleb overlap (1 / 2))) as [u|e] eqn:Ea; cbn [bind].
  2:{ unfold assert_ in Ea. destruct (Rleb _ _); congruence. }
  rewrite E. cbn [bind].
  assert (G : forall kps l i g, fo_bands l i kps g <> Err OutOfFuel).
  { induction kps as [|kp kps IH]; intros l i g; cbn [fo_bands]; [discriminate|].
    destruct (fo_band_total l g i kp) as [(g' & Eg & _)|Eg]; rewrite Eg; cbn [bind]; [apply IH|discriminate]. }
  specialize (G (map (fun fc => (fo_k ((IZR (Z.of_nat N_out) - 1) * 2) (IZR fs) n fc,
                  fo_P ((IZR (Z.of_nat N_out) - 1) * 2) (IZR fs) n overlap fc)) fcs) slope 0%nat
                (repeat (repeat 1 N_out) (length fcs + 1))).
  destruct (fo_bands _ _ _ _) as [g|e]; cbn [bind]; [|congruence].
  destruct mode; cbn; discriminate.
Qed.

Lemma filterbank_diverges n N_out fs f_low f_high mode overlap slope : 0 < n -> f_low <= 0 ->
  (2 <= fs)%Z -> match f_high with Some f => 0 < f | None => True end -> overlap <= 1 / 2 ->
  forall fuel, frac_octave_filterbank fuel n N_out fs f_low f_high mode overlap slope = Err OutOfFuel.
Proof.
  intros Hn Hf Hfs Hh Ho fuel. unfold frac_octave_filterbank. fold (eff_high fs f_high).
  replace (Rleb overlap (1 / 2)) with true by (symmetry; apply Rleb_true; lra).
  cbn [assert_ bind]. rewrite centres_diverge; auto.
  assert (0 < IZR (fs / 2)).
  { apply IZR_lt. apply Z.lt_le_trans with 1%Z; [lia|]. apply Z.div_le_lower_bound; lia. }
  unfold eff_high. destruct f_high; auto. apply Rmin_glb_lt; auto.
Qed.

(** ** C66 *)
Lemma pulse_arrive n p g x h : pulse_at n p g x h -> h = arrive n p g x.
Proof.
  intros (L & B & V & Z). apply nth_ext0; [rewrite length_arrive; auto|].
  intros i Hi. unfold arrive. destruct (Nat.lt_ge_cases i p) as [H|H].
  - rewrite app_nth1 by (rewrite repeat_length; auto). rewrite nth_repeat_in by auto. apply Z; lia.
  - rewrite app_nth2 by (rewrite repeat_length; auto). rewrite repeat_length.
    destruct (Nat.lt_ge_cases (i - p) (length x)) as [H2|H2].
    + rewrite app_nth1 by (rewrite map_length; auto). rewrite (nth_map_in _ _ (i - p) 0 0) by auto.
      rewrite <- V by auto. f_equal. lia.
    + rewrite app_nth2 by (rewrite map_length; auto). rewrite map_length, nth_repeat_in by lia. apply Z; lia.
Qed.
Lemma itd_final n p q gl gr x l r fs :
  pulse_at n p gl x l -> pulse_at n q gr x r -> gl <> 0 -> gr <> 0 ->
  (exists y, In y x /\ y <> 0) ->
  (Z.abs (Z.of_nat q - Z.of_nat p) < Z.of_nat (n / 2))%Z ->
  itd1 l r fs = Ok ((INR q - INR p) / fs).
Proof.
  intros Hl Hr Gl Gr Hx B. pose proof Hl as (_ & H1 & _). pose proof Hr as (_ & H2 & _).
  rewrite (pulse_arrive _ _ _ _ _ Hl), (pulse_arrive _ _ _ _ _ Hr).
  pose proof (Nat.div_le_upper_bound n 2 n ltac:(lia) ltac:(lia)).
  pose proof (Nat.div_mod n 2 ltac:(lia)).
  apply itd_exact; auto; lia.
Qed.

(** ** statements with projections instead of the helpers above *)
Lemma filterbank_tiles fuel n N_out fs f_low f_high mode overlap slope M g ff :
  0 < n -> 0 < f_low ->
  band_count n f_low (match f_high with None => IZR (fs / 2) | Some f => Rmin f (IZR (fs / 2)) end) M ->
  frac_octave_filterbank fuel n N_out fs f_low f_high mode overlap slope = Ok (g, ff) ->
  length ff = S M /\ fst (fst (nth 0 ff (0, 0, 0))) = 0 /\
  snd (nth M ff (0, 0, 0)) = IZR fs / 2 /\
  (forall b, (b < M)%nat -> snd (nth b ff (0, 0, 0)) = fst (fst (nth (S b) ff (0, 0, 0)))).
Proof.
  intros H1 H2 H3 H4.
  destruct (filterbank_limits fuel n N_out fs f_low f_high mode overlap slope M g ff H1 H2 H3 H4) as (A & B & C & D).
  assert (Lo : forall t, fst (fst t) = lim_lo t) by (intros [[? ?] ?]; auto).
  assert (Hi : forall t, snd t = lim_hi t) by (intros [[? ?] ?]; auto).
  rewrite Lo, Hi. split; auto. split; auto. split; auto. intros b Hb. rewrite Lo, Hi. auto.
Qed.

(** ** examples *)
Lemma half_step_1 : half_step 1 = sqrt 2.
Proof. unfold half_step. replace (1 / (2 * 1)) with (/ 2) by field. apply Rpower_sqrt. lra. Qed.
Lemma sqrt2_bounds : 1.41 < sqrt 2 < 1.42.
Proof.
  split.
  - apply Rsqr_incrst_0; [rewrite Rsqr_sqrt by lra; unfold Rsqr; lra|lra|apply sqrt_pos].
  - apply Rsqr_incrst_0; [rewrite Rsqr_sqrt by lra; unfold Rsqr; lra|apply sqrt_pos|lra].
Qed.
Lemma centre_1 f i : centre 1 f i = f * 2 ^ i.
Proof.
  unfold centre. replace (INR i / 1) with (INR i) by field. rewrite Rpower_pow by lra. auto.
Qed.
Lemma is_round_inner k x : Rabs (IZR k - x) < 1 / 2 -> is_round k x.
Proof. intros H. split; lra. Qed.

Definition ex_k (i : nat) : nat := if Nat.eqb i 0 then 16%nat else 32%nat.
Definition ex_P (i : nat) : nat := if Nat.eqb i 0 then 3%nat else 7%nat.
Lemma filterbank_example :
  band_count 1 (8 * sqrt 2) (Rmin 32 (IZR (64 / 2))) 2 /\
  transitions 65 (IZR 64) 1 (8 * sqrt 2) (1 / 2) 2 ex_k ex_P /\ separated 65 2 ex_k ex_P.
Proof.
  pose proof sqrt2_bounds as S2. assert (SQ : sqrt 2 * sqrt 2 = 2) by (apply sqrt_sqrt; lra).
  split; [|split].
  - change (64 / 2)%Z with 32%Z. rewrite Rmin_left by lra.
    split; [lia|]. split.
    + intros i Hi. replace i with 0%nat by lia. rewrite half_step_1, centre_1. cbn [pow]. nra.
    + rewrite half_step_1, centre_1. cbn [Nat.sub pow]. nra.
  - assert (ED : forall i, edge 65 (IZR 64) 1 (8 * sqrt 2) i = 16 * 2 ^ i).
    { intros i. unfold edge. rewrite half_step_1, centre_1. replace (INR 65) with 65 by (rewrite INR_IZR_INZ; reflexivity). field. lra. }
    intros i Hi. rewrite !ED, half_step_1.
    assert (i = 0%nat \/ i = 1%nat) as [->| ->] by lia; unfold ex_k, ex_P; cbn [Nat.eqb pow Z.of_nat Pos.of_succ_nat Pos.succ].
    + split; [split; lra|]. apply is_round_inner. unfold Rabs. destruct (Rcase_abs _); lra.
    + split; [split; lra|]. apply is_round_inner. unfold Rabs. destruct (Rcase_abs _); lra.
  - split.
    + intros i Hi. replace i with 0%nat by lia. cbn. lia.
    + intros i Hi. assert (i = 0%nat \/ i = 1%nat) as [->| ->] by lia; cbn; lia.
Qed.

Lemma filterbank_top_example :
  band_count 1 (15 * sqrt 2) (IZR (32 / 2)) 1 /\
  transitions 33 (IZR 32) 1 (15 * sqrt 2) (1 / 2) 1 (fun _ => 30%nat) (fun _ => 6%nat).
Proof.
  pose proof sqrt2_bounds as S2. assert (SQ : sqrt 2 * sqrt 2 = 2) by (apply sqrt_sqrt; lra).
  split.
  - split; [lia|]. split; [intros; lia|]. change (32 / 2)%Z with 16%Z. rewrite half_step_1, centre_1. cbn [Nat.sub pow]. nra.
  - intros i Hi. replace i with 0%nat by lia.
    assert (ED : edge 33 (IZR 32) 1 (15 * sqrt 2) 0 = 30).
    { unfold edge. rewrite half_step_1, centre_1. replace (INR 33) with 33 by (rewrite INR_IZR_INZ; reflexivity). cbn [pow]. field. lra. }
    rewrite ED, half_step_1. cbn [Z.of_nat Pos.of_succ_nat Pos.succ].
    split; [split; lra|]. apply is_round_inner. unfold Rabs. destruct (Rcase_abs _); lra.
Qed.

(** with the default [f_high] and a frequency resolution as above, a band whose
    lower transition reaches beyond the Nyquist bin is an error *)
Lemma filterbank_top_refuted : exists n N_out fs f_low,
  n = 1 /\ N_out = 33%nat /\ fs = 32%Z /\ 0 < f_low < IZR fs /\
  forall fuel mode slope,
    (forall gf, frac_octave_filterbank fuel n N_out fs f_low None mode (1 / 2) slope <> Ok gf) /\
    exists fuel0, forall fuel, (fuel0 <= fuel)%nat ->
      frac_octave_filterbank fuel n N_out fs f_low None mode (1 / 2) slope = Err ValueError.
Proof.
  exists 1, 33%nat, 32%Z, (15 * sqrt 2). pose proof sqrt2_bounds. repeat (split; [first [reflexivity|lra]|]).
  intros fuel mode slope. destruct filterbank_top_example as [A B].
  assert (G : forall fuel, frac_octave_filterbank fuel 1 33 32 (15 * sqrt 2) None mode (1 / 2) slope = Err ValueError \/
    frac_octave_filterbank fuel 1 33 32 (15 * sqrt 2) None mode (1 / 2) slope = Err OutOfFuel).
  { intros fu. apply filterbank_top with 1%nat (fun _ => 30%nat) (fun _ => 6%nat); auto; try lra; try lia.
    exists 0%nat. lia. }
  split.
  - intros gf E. destruct (G fuel) as [E'|E']; congruence.
  - destruct (filterbank_terminates 1 33 32 (15 * sqrt 2) None mode (1 / 2) slope ltac:(lra) ltac:(lra)) as (f0 & F).
    exists f0. intros fu Hfu. destruct (G fu) as [E|E]; auto. exfalso. apply (F fu Hfu E).
Qed.

Lemma match_example :
  let a := Mat 2 2 (fun i j => if Nat.eqb j 0 then 3 else 2) in
  let t := Mat 2 1 (fun i j => 1 / 2) in
  max_rms a 3 /\ max_rms t (1 / 2).
Proof.
  cbv zeta. split; split.
  - exists 0%nat. split; [cbn; lia|]. unfold chan_rms. cbn [nr ent rsum Nat.eqb].
    replace ((0 + 3 * 3 + 3 * 3) / INR 2) with (3 * 3) by (cbn; field). apply sqrt_square. lra.
  - intros j Hj. cbn in Hj. unfold chan_rms. cbn [nr ent].
    assert (j = 0%nat \/ j = 1%nat) as [->| ->] by lia; cbn [Nat.eqb rsum].
    + replace ((0 + 3 * 3 + 3 * 3) / INR 2) with (3 * 3) by (cbn; field). rewrite sqrt_square; lra.
    + replace ((0 + 2 * 2 + 2 * 2) / INR 2) with (2 * 2) by (cbn; field). rewrite sqrt_square; lra.
  - exists 0%nat. split; [cbn; lia|]. unfold chan_rms. cbn [nr ent rsum].
    replace ((0 + 1 / 2 * (1 / 2) + 1 / 2 * (1 / 2)) / INR 2) with (1 / 2 * (1 / 2)) by (cbn; field). apply sqrt_square. lra.
  - intros j Hj. unfold chan_rms. cbn [nr ent rsum].
    replace ((0 + 1 / 2 * (1 / 2) + 1 / 2 * (1 / 2)) / INR 2) with (1 / 2 * (1 / 2)) by (cbn; field). rewrite sqrt_square; lra.
Qed.

Lemma window_example : in_window (half_step 1) 2 1 /\ in_window (half_step 1) 2 2 /\
  ~ in_window (half_step 1) 2 0 /\ ~ in_window (half_step 1) 2 3.
Proof.
  rewrite half_step_1. pose proof sqrt2_bounds. assert (SQ : sqrt 2 * sqrt 2 = 2) by (apply sqrt_sqrt; lra).
  assert (E : 2 / sqrt 2 = sqrt 2) by (apply Rmult_eq_reg_r with (sqrt 2); [unfold Rdiv; rewrite Rmult_assoc, Rinv_l; lra|lra]).
  unfold in_window. replace (INR 2) with 2 by reflexivity. rewrite E. cbn [INR].
  repeat split; try lra; intros [A B]; lra.
Qed.

Lemma py_int_quarter : py_int (IZR 4 * 1) = 4%Z /\ py_int (IZR 4 * (1 / 2)) = 2%Z /\ py_int (IZR 4 * 2) = 8%Z.
Proof.
  replace (IZR 4 * 1) with (IZR 4) by ring. replace (IZR 4 * (1 / 2)) with (IZR 2) by field.
  replace (IZR 4 * 2) with (IZR 8) by ring.
  assert (P : forall z, (0 <= z)%Z -> py_int (IZR z) = z).
  { intros z Hz. unfold py_int. replace (Rleb 0 (IZR z)) with true.
    - apply is_floor_zfloor. split; lra.
    - symmetry. apply Rleb_true. apply IZR_le. auto. }
  rewrite !P by lia. auto.
Qed.
(** one second of noise at 4 Hz with a pause of two seconds: 8 samples instead of 12 *)
Lemma pause_refuted : exists randn pink tn tp fs tf s,
  (forall i n, length (randn i n) = n) /\ py_int (IZR fs * tn) = 4%Z /\ py_int (IZR fs * tp) = 8%Z /\
  pulsed_noise randn pink tn tp fs 1 tf false false = Ok (Some s) /\ length s <> (4 + 8)%nat.
Proof.
  destruct py_int_quarter as (A & B & C).
  destruct (pulsed_noise_final (fun _ n => repeat 1 n) (fun l => l) 1 2 4 1 (1 / 2) false 4 2 4 A B)
    as (s & E & L & _).
  { intros. apply repeat_length. } { lia. }
  exists (fun _ n => repeat 1 n), (fun l => l), 1, 2, 4%Z, (1 / 2), s.
  split; [intros; apply repeat_length|]. split; auto. split; auto. split; auto. lia.
Qed.

Lemma zero_jobs_refuted : exists (r1 : list R -> res (list R)) hl hr,
  resample_hrirs r1 (mapM r1) hl hr 1 1 1 0 1 [] [] <> resample_hrirs r1 (mapM r1) hl hr 1 1 1 1 1 [] [].
Proof.
  exists (fun l => Ok l), [[1]], [[1]].
  rewrite resample_no_jobs by lia. unfold resample_hrirs. cbn [Z.eqb Pos.eqb mapM bind map length zeros2 repeat].
  intros H. injection H as H _. destruct (Z.to_nat _) as [|n] eqn:E; cbn in H; [discriminate|].
  injection H as H. lra.
Qed.

Lemma order_example : full_order 5 2 [1; 2; 0]%nat.
Proof.
  split.
  - repeat constructor; cbn; intuition lia.
  - intros i. cbn. split; [intros [<-|[<-|[<-|[]]]]; lia|]. intros H. assert (i = 0 \/ i = 1 \/ i = 2)%nat by lia. intuition.
Qed.

Lemma pulse_example : pulse_at 8 1 2 [1; 3] [0; 2; 6; 0; 0; 0; 0; 0] /\
  pulse_at 8 3 (-1) [1; 3] [0; 0; 0; -1; -3; 0; 0; 0].
Proof.
  split; (split; [reflexivity|]; split; [cbn; lia|]; split;
    [intros i Hi; cbn in Hi; assert (i = 0 \/ i = 1)%nat as [->| ->] by lia; cbn; ring|
     intros i Hi [H|H]; cbn in H; do 8 (destruct i as [|i]; [cbn; first [reflexivity|lia]|]); lia]).
Qed.
