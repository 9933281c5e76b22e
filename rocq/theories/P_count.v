(** The eigenvalues of sources in noise and the number of sources counted. *)
From Verif Require Import Base BaseFacts M_utils M_sph0 M_sph M_parsa S_linalg S_sph S_grids S_parsa S_eig S_music S_count P_sph7 P_sph8 P_sph9 P_sph12 P_parsa2 P_parsa3 P_parsa4 P_eig1 P_eig2 P_dec9 P_music P_music2 X_music X_parsa.
Open Scope R_scope.

Section Spread.
Variables (cov : mat) (w : list R) (v : mat) (ns : nat) (p : nat -> R) (Ys : nat -> nat -> R) (sg : R).
Let n := nr cov.
Hypothesis (HE : is_eigh cov w v).
Hypothesis HM : forall i j, (i < n)%nat -> (j < n)%nat -> ent cov i j = sg * delta i j + rsum ns (fun s => p s * (Ys s i * Ys s j)).
Let proj (s k : nat) : R := rsum n (fun j => Ys s j * ent v j k).
Let gram (s t : nat) : R := rsum n (fun i => Ys s i * Ys t i).
Lemma parseval s t : rsum n (fun k => proj s k * proj t k) = gram s t.
Proof.
  unfold gram. rewrite (rsum_ext n (fun i => Ys s i * Ys t i) (fun i => rsum n (fun k => proj s k * (Ys t i * ent v i k)))).
  - rewrite rsum_swap. apply rsum_ext. intros k Hk. rewrite rsum_scal. reflexivity.
  - intros i Hi. rewrite (proj_expand cov w v Ys HE s i Hi) at 1. rewrite <- rsum_scal_r. apply rsum_ext. intros k Hk. unfold proj, n. ring.
Qed.
Lemma excess k : (k < n)%nat -> nth k w 0 - sg = rsum ns (fun s => p s * proj s k ^ 2).
Proof. intros Hk. apply (eig_excess cov w v ns p Ys sg HE HM k Hk). Qed.
Lemma excess_proj k t : (k < n)%nat -> (nth k w 0 - sg) * proj t k = rsum ns (fun s => p s * proj s k * gram s t).
Proof.
  intros Hk. unfold proj at 1. rewrite <- rsum_scal.
  rewrite (rsum_ext n _ (fun i => rsum ns (fun s => p s * proj s k * (Ys s i * Ys t i)))).
  - rewrite rsum_swap. apply rsum_ext. intros s Hs. rewrite rsum_scal. reflexivity.
  - intros i Hi. transitivity (((nth k w 0 - sg) * ent v i k) * Ys t i); [ring|]. rewrite (eig_vec cov w v ns p Ys sg HE HM k i Hk Hi). rewrite <- rsum_scal_r. apply rsum_ext. intros s Hs. unfold proj, n. ring.
Qed.
Lemma excess_sum : rsum n (fun k => nth k w 0 - sg) = rsum ns (fun s => p s * gram s s).
Proof.
  rewrite (rsum_ext n _ (fun k => rsum ns (fun s => p s * (proj s k * proj s k)))) by (intros k Hk; rewrite excess by exact Hk; apply rsum_ext; intros; ring).
  rewrite rsum_swap. apply rsum_ext. intros s Hs. rewrite rsum_scal, parseval. reflexivity.
Qed.
Lemma excess_squares : rsum n (fun k => (nth k w 0 - sg) ^ 2) = rsum ns (fun s => rsum ns (fun t => p s * p t * gram s t ^ 2)).
Proof.
  rewrite (rsum_ext n _ (fun k => rsum ns (fun t => rsum ns (fun s => p s * p t * gram s t * (proj s k * proj t k))))).
  - rewrite rsum_swap. rewrite (rsum_ext ns _ (fun t => rsum ns (fun s => p s * p t * gram s t ^ 2))).
    + apply rsum_swap.
    + intros t Ht. rewrite rsum_swap. apply rsum_ext. intros s Hs. rewrite rsum_scal, parseval. ring.
  - intros k Hk. transitivity ((nth k w 0 - sg) * (nth k w 0 - sg)); [ring|]. rewrite (excess k Hk) at 2. rewrite <- rsum_scal. apply rsum_ext. intros t Ht.
    transitivity (p t * proj t k * ((nth k w 0 - sg) * proj t k)); [ring|]. rewrite excess_proj by exact Hk. rewrite <- rsum_scal. apply rsum_ext. intros s Hs. ring.
Qed.
End Spread.

Lemma variance_shift w sg T F : (0 < length w)%nat -> rsum (length w) (fun k => nth k w 0 - sg) = T -> rsum (length w) (fun k => (nth k w 0 - sg) ^ 2) = F ->
  is_variance w (F / INR (length w) - (T / INR (length w)) ^ 2).
Proof.
  intros L ET EF. assert (P : 0 < INR (length w)) by (apply lt_0_INR; exact L). exists (sg + T / INR (length w)). split.
  - rewrite lsum_nth. rewrite rsum_minus, rsum_const in ET. rewrite <- ET. field. lra.
  - rewrite lsum_nth, map_length. rewrite (rsum_ext _ _ (fun k => (nth k w 0 - sg) ^ 2 - 2 * (T / INR (length w)) * (nth k w 0 - sg) + (T / INR (length w)) ^ 2)).
    + rewrite rsum_plus, rsum_minus, rsum_scal, rsum_const, ET, EF. field. lra.
    + intros k Hk. rewrite (nth_map_in (fun x => (x - (sg + T / INR (length w))) ^ 2) w k 0 0 Hk). ring.
Qed.

(** ** inner products of harmonics *)
Lemma gram_overlap N sa sz Ys s t : length sz = length sa -> zeniths sz -> sh_matrix N sa sz = Ok Ys -> (s < length sa)%nat -> (t < length sa)%nat ->
  rsum ((N + 1) ^ 2) (fun i => ent Ys s i * ent Ys t i) = overlap N (dirv sa sz s) (dirv sa sz t).
Proof.
  intros HS Zs ES Hs Ht. destruct (sh_matrix_ok N sa sz HS) as (Y & EY & _ & _ & HY). rewrite ES in EY. injection EY as <-.
  assert (Z : forall q, (q < length sa)%nat -> 0 <= nth q sz 0 <= PI) by (intros q Hq; apply Zs, nth_In; congruence).
  pose proof (response_legendre (repeat 1 (N + 1)) N (nth s sa 0) (nth s sz 0) (nth t sa 0) (nth t sz 0) (repeat_length _ _) (Z s Hs) (Z t Ht)) as E.
  rewrite sq2, rsum_acn. unfold overlap, dirv. etransitivity; [|etransitivity; [exact E|]]; apply rsum_ext; intros n Hn; rewrite nth_repeat_in by exact Hn; rewrite Rmult_1_l.
  - apply rsum_ext. intros k Hk. rewrite !HY by (auto; lia). reflexivity.
  - reflexivity.
Qed.
Lemma overlap_self N u : dot3 u u = 1 -> overlap N u u = INR ((N + 1) ^ 2) / (4 * PI).
Proof.
  intros H. unfold overlap. rewrite H. rewrite (rsum_ext _ _ (fun n => / (4 * PI) * (2 * INR n + 1))) by (intros n Hn; rewrite legendre_one; unfold Rdiv; ring).
  rewrite rsum_scal, order_sum. unfold Rdiv. ring.
Qed.
Lemma overlap_bound N u v : dot3 u u = 1 -> dot3 v v = 1 -> overlap N u v ^ 2 <= (INR ((N + 1) ^ 2) / (4 * PI)) ^ 2.
Proof.
  intros U V. assert (B : -1 <= dot3 u v <= 1) by (pose proof (dot3_cs u v) as Q; rewrite U, V in Q; nra). pose proof PI_RGT_0.
  assert (A : Rabs (overlap N u v) <= INR ((N + 1) ^ 2) / (4 * PI)).
  { rewrite <- (overlap_self N u U). unfold overlap. rewrite U. clear U V. induction (N + 1)%nat as [|k IH]; cbn [rsum]; [rewrite Rabs_R0; lra|].
    eapply Rle_trans; [apply Rabs_triang|]. apply Rplus_le_compat; [exact IH|]. rewrite Rabs_mult, legendre_one. pose proof (pos_INR k).
    assert (0 <= (2 * INR k + 1) / (4 * PI)) by (apply Rle_mult_inv_pos; lra). rewrite (Rabs_pos_eq _ H1). apply Rmult_le_compat_l; [exact H1|]. apply legendre_abs. exact B. }
  rewrite <- (pow2_abs (overlap N u v)). apply pow_incr. split; [apply Rabs_pos|exact A].
Qed.

(** ** the variance *)
Theorem sources_variance N sa sz p sg cov w V : sources_in_noise sh_real N sa sz p sg cov -> is_eigh cov w V -> length w = ((N + 1) ^ 2)%nat /\ is_variance w (spread N sa sz p).
Proof.
  intros SN HE. destruct (sources_open N sa sz p sg cov SN) as (Ys & ES & SY & HM). destruct SN as (HS & HP & Zs & D & PP & KN & SQ & _).
  assert (LW : length w = nr cov) by apply HE. assert (LP : (0 < length w)%nat) by (rewrite LW, KN, sq2; lia). split; [congruence|].
  pose proof (excess_sum cov w V (length sa) (fun s => nth s p 0) (ent Ys) sg HE HM) as T. pose proof (excess_squares cov w V (length sa) (fun s => nth s p 0) (ent Ys) sg HE HM) as F. cbv beta in T, F.
  rewrite <- LW in T at 1. rewrite <- LW in F at 1. pose proof (variance_shift w sg _ _ LP T F) as G.
  assert (GG : forall s t, (s < length sa)%nat -> (t < length sa)%nat -> rsum (nr cov) (fun i => ent Ys s i * ent Ys t i) = overlap N (dirv sa sz s) (dirv sa sz t)) by (intros; rewrite KN; apply gram_overlap; assumption).
  rewrite LW, KN in G. unfold spread.
  replace (lsum p / (4 * PI)) with (rsum (length sa) (fun s => nth s p 0 * rsum (nr cov) (fun i => ent Ys s i * ent Ys s i)) / INR ((N + 1) ^ 2)).
  - rewrite KN. erewrite (rsum_ext (length sa) (fun s => rsum (length sa) (fun t => nth s p 0 * nth t p 0 * overlap N _ _ ^ 2))); [exact G|].
    intros s Hs. apply rsum_ext. intros t Ht. rewrite <- KN, GG by assumption. reflexivity.
  - rewrite (rsum_ext _ _ (fun s => nth s p 0 * (INR ((N + 1) ^ 2) / (4 * PI)))) by (intros s Hs; rewrite GG by assumption; rewrite overlap_self; [reflexivity|apply unit_dir]).
    rewrite rsum_scal_r. rewrite lsum_nth, HP. assert (0 < INR ((N + 1) ^ 2)) by (apply lt_0_INR; rewrite sq2; lia). pose proof PI_RGT_0. field. split; lra.
Qed.
Lemma spread_bound N sa sz p : length p = length sa -> (forall x, In x p -> 0 < x) -> spread N sa sz p <= (lsum p) ^ 2 * (INR ((N + 1) ^ 2) - 1) / (4 * PI) ^ 2.
Proof.
  intros HP PP. unfold spread. assert (0 < INR ((N + 1) ^ 2)) by (apply lt_0_INR; rewrite sq2; lia). pose proof PI_RGT_0.
  assert (Q : forall s, (s < length sa)%nat -> 0 < nth s p 0) by (intros s Hs; apply PP, nth_In; congruence).
  assert (A : rsum (length sa) (fun s => rsum (length sa) (fun t => nth s p 0 * nth t p 0 * overlap N (dirv sa sz s) (dirv sa sz t) ^ 2)) <= lsum p ^ 2 * (INR ((N + 1) ^ 2) / (4 * PI)) ^ 2).
  { apply Rle_trans with (rsum (length sa) (fun s => rsum (length sa) (fun t => nth s p 0 * nth t p 0 * (INR ((N + 1) ^ 2) / (4 * PI)) ^ 2))).
    - apply rsum_le. intros s Hs. apply rsum_le. intros t Ht. apply Rmult_le_compat_l; [|apply overlap_bound; apply unit_dir]. apply Rmult_le_pos; apply Rlt_le, Q; assumption.
    - apply Req_le. rewrite lsum_nth, HP. rewrite (rsum_ext _ _ (fun s => nth s p 0 * (rsum (length sa) (fun t => nth t p 0) * (INR ((N + 1) ^ 2) / (4 * PI)) ^ 2))).
      + rewrite rsum_scal_r. ring.
      + intros s Hs. rewrite <- rsum_scal_r, <- rsum_scal. apply rsum_ext. intros. ring. }
  apply Rle_trans with (lsum p ^ 2 * (INR ((N + 1) ^ 2) / (4 * PI)) ^ 2 / INR ((N + 1) ^ 2) - (lsum p / (4 * PI)) ^ 2).
  - apply Rplus_le_compat_r. unfold Rdiv at 1 3. apply Rmult_le_compat_r; [apply Rlt_le, Rinv_0_lt_compat; assumption|exact A].
  - apply Req_le. field. split; lra.
Qed.
Lemma spread_one N az ze q : spread N [az] [ze] [q] = q ^ 2 * (INR ((N + 1) ^ 2) - 1) / (4 * PI) ^ 2.
Proof.
  unfold spread. cbn [length rsum]. rewrite overlap_self by apply unit_dir. cbn [nth]. pose proof PI_RGT_0. assert (0 < INR ((N + 1) ^ 2)) by (apply lt_0_INR; rewrite sq2; lia).
  replace (lsum [q]) with q by (rewrite lsum_nth; cbn [length rsum nth]; ring). set (L := INR ((N + 1) ^ 2)) in *. field. split; lra.
Qed.

(** ** the count *)
Section Count.
Variables (ev : mat -> list R) (N : nat) (sa sz p : list R) (sg : R) (cov : mat).
Hypotheses (X : exact_eigvalsh ev) (SN : sources_in_noise sh_real N sa sz p sg cov).
Let L := ((N + 1) ^ 2)%nat.
Lemma open_eig : exists V, is_eigh cov (ev cov) V.
Proof. apply X. destruct (sources_open N sa sz p sg cov SN) as (_ & _ & SY & _). exact SY. Qed.
Lemma ev_length : length (ev cov) = L.
Proof. destruct open_eig as (V & HE). apply (sources_variance N sa sz p sg cov _ V SN HE). Qed.
Lemma ev_variance : is_variance (ev cov) (spread N sa sz p).
Proof. destruct open_eig as (V & HE). apply (sources_variance N sa sz p sg cov _ V SN HE). Qed.
Lemma limit_threshold a0 : threshold (ev cov) a0 (limit_for L a0).
Proof. unfold threshold, limit_for. destruct a0; [reflexivity|]. rewrite ev_length. reflexivity. Qed.
Lemma L_pos : (0 < L)%nat. Proof. unfold L. rewrite sq2. lia. Qed.
Theorem gate a0 : spread N sa sz p < limit_for L a0 -> estimate_num_sources ev cov a0 None = Ok 0%nat.
Proof. intros H. rewrite f_count_default. apply (f_count_low ev cov _ a0 (limit_for L a0) (spread N sa sz p)); [rewrite ev_length; exact L_pos|apply limit_threshold|exact ev_variance|exact H]. Qed.
Theorem quiet : lsum p ^ 2 * (INR L - 1) < (4 * PI) ^ 2 * (1 + 2 / INR L) -> estimate_num_sources ev cov None None = Ok 0%nat.
Proof.
  intros H. apply gate. cbn [limit_for]. pose proof SN as (_ & HP & _ & _ & PP & _). eapply Rle_lt_trans; [apply (spread_bound N sa sz p HP PP)|]. fold L. pose proof PI_RGT_0.
  assert (0 < (4 * PI) ^ 2) by (apply pow_lt; lra). apply Rmult_lt_reg_r with ((4 * PI) ^ 2); [assumption|]. unfold Rdiv at 1. rewrite Rmult_assoc, Rinv_l, Rmult_1_r by lra. lra.
Qed.
Hypotheses (HK : (length sa <= 2 * N + 1)%nat) (NN : 0 <= sg).
Lemma ev_low k : (k < L - length sa)%nat -> nth k (ev cov) 0 = sg.
Proof. intros Hk. destruct open_eig as (V & HE). destruct (f_spectrum N sa sz p sg cov _ V SN HE HK) as (_ & A & _). apply A. rewrite ev_length. exact Hk. Qed.
Lemma ev_high k : (L - length sa <= k < L)%nat -> sg < nth k (ev cov) 0.
Proof. intros Hk. destruct open_eig as (V & HE). destruct (f_spectrum N sa sz p sg cov _ V SN HE HK) as (_ & _ & A). apply A. rewrite ev_length. exact Hk. Qed.
Lemma KL : (length sa <= L)%nat. Proof. unfold L. rewrite sq2. nia. Qed.
Variables (a0 : option R).
Let a := limit_for L a0.
Hypotheses (A1 : 1 <= a) (GO : a <= spread N sa sz p).
Lemma no_noise_jump m : (S m < L - length sa)%nat -> ~ jump (ev cov) a m.
Proof. intros Hm J. unfold jump in J. cbv zeta in J. rewrite !ev_low in J by lia. destruct J as [(J & H)|[(J & H)|(J & H)]]; nra. Qed.
Lemma gap_jump : (1 <= length sa < L)%nat -> (jump (ev cov) a (L - length sa - 1) <-> a * (sg + 1 / 10000000) < nth (L - length sa) (ev cov) 0).
Proof.
  intros H. unfold jump. cbv zeta. rewrite (ev_low (L - length sa - 1)) by lia. replace (S (L - length sa - 1)) with (L - length sa)%nat by lia. split.
  - intros [(J & Q)|[(J & Q)|(J & Q)]]; try lra.
  - intros Q. left. split; [lra|exact Q].
Qed.
Theorem exact_count : (1 <= length sa < L)%nat -> a * (sg + 1 / 10000000) < nth (L - length sa) (ev cov) 0 -> estimate_num_sources ev cov a0 None = Ok (length sa).
Proof.
  intros H J. rewrite f_count_default. rewrite (f_count_jump ev cov (ev cov) a0 a (spread N sa sz p) (L - length sa - 1)).
  - rewrite ev_length. f_equal. lia.
  - apply limit_threshold.
  - exact ev_variance.
  - exact GO.
  - rewrite ev_length. lia.
  - apply gap_jump; assumption.
  - intros m Hm. apply no_noise_jump. lia.
Qed.
Theorem missed_count : (1 <= length sa < L)%nat -> nth (L - length sa) (ev cov) 0 <= a * (sg + 1 / 10000000) ->
  exists n, estimate_num_sources ev cov a0 None = Ok n /\ ((n < length sa)%nat \/ n = (L - 1)%nat).
Proof.
  intros H J. rewrite f_count_default. unfold estimate_num_sources. destruct (count_many (ev cov) a0 a (spread N sa sz p)) as (c & E & Hc & [(JC & NJ)|(NJ & ->)]).
  - rewrite ev_length. exact L_pos.
  - apply limit_threshold.
  - exact ev_variance.
  - exact GO.
  - rewrite ev_length. lia.
  - rewrite ev_length in Hc, E. rewrite E. eexists. split; [reflexivity|]. left. assert (~ (c < L - length sa)%nat); [|lia]. intros HC.
    destruct (Nat.eq_dec c (L - length sa - 1)) as [->|NE]; [apply gap_jump in JC; [lra|exact H]|]. apply (no_noise_jump c); [lia|exact JC].
  - rewrite ev_length in E. rewrite E. eexists. split; [reflexivity|]. right. lia.
Qed.
End Count.

(** ** one source *)
Lemma one_top ev N az ze q sg cov : exact_eigvalsh ev -> sources_in_noise sh_real N [az] [ze] [q] sg cov -> nth ((N + 1) ^ 2 - 1) (ev cov) 0 = sg + q * INR ((N + 1) ^ 2) / (4 * PI).
Proof.
  intros X SN. destruct (open_eig ev N _ _ _ _ _ X SN) as (V & HE). destruct (sources_open N _ _ _ sg cov SN) as (Ys & ES & SY & HM).
  pose proof (ev_length ev N _ _ _ _ _ X SN) as LW. pose proof SN as (HS & HP & Zs & D & PP & KN & SQ & _).
  pose proof (excess_sum cov (ev cov) V 1 (fun s => nth s [q] 0) (ent Ys) sg HE HM) as T. cbn [rsum] in T. rewrite KN in T. rewrite (gram_overlap N [az] [ze] Ys 0 0 HS Zs ES) in T by (cbn; lia). rewrite overlap_self in T by apply unit_dir. cbn [nth] in T.
  assert (P : (0 < (N + 1) ^ 2)%nat) by (rewrite sq2; lia). set (L := ((N + 1) ^ 2)%nat) in *. replace L with (S (L - 1)) in T at 1 by lia. cbn [rsum] in T.
  rewrite (rsum_ext (L - 1) _ (fun _ => 0)) in T.
  - rewrite rsum_0 in T by reflexivity. unfold Rdiv in *. lra.
  - intros k Hk. rewrite (ev_low ev N _ _ _ _ _ X SN) by (cbn [length]; fold L; lia). ring.
Qed.
