(** Final forms and examples of the properties of the source count for sources in noise. *)
From Verif Require Import Base BaseFacts M_utils M_sph0 M_sph M_parsa S_linalg S_sph S_grids S_parsa S_eig S_music S_count P_sph7 P_sph8 P_sph9 P_parsa3 P_eig1 P_eig2 P_music P_count X_music X_eig X_parsa.
Open Scope R_scope.

Lemma pi_near : 3 < PI < 16 / 5.
Proof.
  split; [pose proof PI2_3_2; lra|]. pose proof (PI_ineq 10) as (_ & H). unfold tg_alt, PI_tg in H. cbn [sum_f_R0 Nat.mul Nat.add pow INR] in H. lra.
Qed.
Lemma f_variance : forall N sa sz p sg cov w V, sources_in_noise sh_real N sa sz p sg cov -> is_eigh cov w V -> length w = ((N + 1) ^ 2)%nat /\ is_variance w (spread N sa sz p).
Proof. exact sources_variance. Qed.
Lemma f_gate : forall ev N sa sz p sg cov a0, exact_eigvalsh ev -> sources_in_noise sh_real N sa sz p sg cov -> spread N sa sz p < limit_for ((N + 1) ^ 2) a0 ->
  estimate_num_sources ev cov a0 None = Ok 0%nat.
Proof. intros ev N sa sz p sg cov a0 X SN H. exact (gate ev N sa sz p sg cov X SN a0 H). Qed.
Lemma f_noise_only : forall ev N sg cov a0, exact_eigvalsh ev -> sources_in_noise sh_real N [] [] [] sg cov -> 0 < limit_for ((N + 1) ^ 2) a0 -> estimate_num_sources ev cov a0 None = Ok 0%nat.
Proof.
  intros ev N sg cov a0 X SN H. apply (f_gate ev N [] [] [] sg cov a0 X SN). replace (spread N [] [] []) with 0; [exact H|]. unfold spread. cbn [length rsum]. change (lsum []) with 0. pose proof PI_RGT_0.
  assert (0 < INR ((N + 1) ^ 2)) by (apply lt_0_INR; rewrite sq2; lia). field. split; lra.
Qed.
Lemma f_quiet : forall ev N sa sz p sg cov, exact_eigvalsh ev -> sources_in_noise sh_real N sa sz p sg cov ->
  lsum p ^ 2 * (INR ((N + 1) ^ 2) - 1) < (4 * PI) ^ 2 * (1 + 2 / INR ((N + 1) ^ 2)) -> estimate_num_sources ev cov None None = Ok 0%nat.
Proof. intros ev N sa sz p sg cov X SN H. exact (quiet ev N sa sz p sg cov X SN H). Qed.
Lemma lsum_pos_le p : (forall x, In x p -> 0 < x) -> 0 <= lsum p.
Proof. intros H. rewrite lsum_nth. apply rsum_nonneg. intros i Hi. apply Rlt_le, H, nth_In, Hi. Qed.
Lemma f_quiet_orders : forall ev N sa sz p sg cov, exact_eigvalsh ev -> sources_in_noise sh_real N sa sz p sg cov -> (N <= 11)%nat -> lsum p <= 1 -> estimate_num_sources ev cov None None = Ok 0%nat.
Proof.
  intros ev N sa sz p sg cov X SN HN HP. apply (f_quiet ev N sa sz p sg cov X SN). pose proof SN as (_ & _ & _ & _ & PP & _). pose proof (lsum_pos_le p PP) as P0.
  assert (L : (1 <= (N + 1) ^ 2 <= 144)%nat) by (rewrite sq2; nia). set (l := ((N + 1) ^ 2)%nat) in *. assert (A : 1 <= INR l <= 144).
  { split; [change 1 with (INR 1)|change 144 with (IZR (Z.of_nat 144)); rewrite <- INR_IZR_INZ]; apply le_INR; lia. }
  destruct pi_near as [P _]. assert (0 < 2 / INR l) by (apply Rdiv_lt_0_compat; lra). assert (lsum p ^ 2 <= 1) by (simpl; nra). assert (144 < (4 * PI) ^ 2) by (simpl; nra).
  apply Rle_lt_trans with 143; [nra|]. nra.
Qed.
Lemma f_order_12 : forall ev az ze sg cov, exact_eigvalsh ev -> sources_in_noise sh_real 12 [az] [ze] [1] sg cov -> 0 <= sg <= 1 -> estimate_num_sources ev cov None None = Ok 1%nat.
Proof.
  intros ev az ze sg cov X SN HS. destruct pi_near as [P1 P2]. assert (L : INR ((12 + 1) ^ 2) = 169) by (rewrite INR_IZR_INZ; reflexivity).
  apply (exact_count ev 12 [az] [ze] [1] sg cov X SN); try (change (length [az]) with 1%nat; lia); try (change (length [az]) with 1%nat; split; [lia|apply Nat.ltb_lt; reflexivity]).
  - lra.
  - unfold limit_for. rewrite L. lra.
  - unfold limit_for. rewrite spread_one, L. assert (0 < (4 * PI) ^ 2) by (simpl; nra). apply Rmult_le_reg_r with ((4 * PI) ^ 2); [assumption|]. unfold Rdiv at 2. rewrite Rmult_assoc, Rinv_l, Rmult_1_r by lra. simpl. nra.
  - change (length [az]) with 1%nat. rewrite (one_top ev 12 az ze 1 sg cov X SN). unfold limit_for. rewrite L. assert (10 < 1 * 169 / (4 * PI)); [|lra].
    apply Rmult_lt_reg_r with (4 * PI); [lra|]. unfold Rdiv. rewrite Rmult_assoc, Rinv_l, Rmult_1_r by lra. lra.
Qed.
Lemma f_exact : forall ev N sa sz p sg cov a0, exact_eigvalsh ev -> sources_in_noise sh_real N sa sz p sg cov -> (1 <= length sa <= 2 * N + 1)%nat -> (length sa < (N + 1) ^ 2)%nat -> 0 <= sg ->
  let a := limit_for ((N + 1) ^ 2) a0 in 1 <= a -> a <= spread N sa sz p -> a * (sg + 1 / 10000000) < nth ((N + 1) ^ 2 - length sa) (ev cov) 0 ->
  estimate_num_sources ev cov a0 None = Ok (length sa).
Proof. intros ev N sa sz p sg cov a0 X SN HK HL NN a A1 GO J. apply (exact_count ev N sa sz p sg cov X SN); try assumption; lia. Qed.
Lemma f_iff : forall ev N sa sz p sg cov a0, exact_eigvalsh ev -> sources_in_noise sh_real N sa sz p sg cov -> (1 <= length sa <= 2 * N + 1)%nat -> (length sa + 1 < (N + 1) ^ 2)%nat -> 0 <= sg ->
  let a := limit_for ((N + 1) ^ 2) a0 in 1 <= a ->
  (estimate_num_sources ev cov a0 None = Ok (length sa) <-> a <= spread N sa sz p /\ a * (sg + 1 / 10000000) < nth ((N + 1) ^ 2 - length sa) (ev cov) 0).
Proof.
  intros ev N sa sz p sg cov a0 X SN HK HL NN a A1. split.
  - intros E. destruct (Rlt_le_dec (spread N sa sz p) a) as [H|H].
    + rewrite (f_gate ev N sa sz p sg cov a0 X SN H) in E. injection E as E. lia.
    + split; [exact H|]. apply Rnot_le_lt. intros J. destruct (missed_count ev N sa sz p sg cov X SN ltac:(lia) NN a0 A1 H ltac:(lia) J) as (n & E2 & D). rewrite E in E2. injection E2 as <-. lia.
  - intros [GO J]. apply (f_exact ev N sa sz p sg cov a0 X SN); try assumption; lia.
Qed.
Lemma f_missed : forall ev N sa sz p sg cov a0, exact_eigvalsh ev -> sources_in_noise sh_real N sa sz p sg cov -> (1 <= length sa <= 2 * N + 1)%nat -> (length sa < (N + 1) ^ 2)%nat -> 0 <= sg ->
  let a := limit_for ((N + 1) ^ 2) a0 in 1 <= a -> a <= spread N sa sz p -> nth ((N + 1) ^ 2 - length sa) (ev cov) 0 <= a * (sg + 1 / 10000000) ->
  exists n, estimate_num_sources ev cov a0 None = Ok n /\ ((n < length sa)%nat \/ n = ((N + 1) ^ 2 - 1)%nat).
Proof. intros ev N sa sz p sg cov a0 X SN HK HL NN a A1 GO J. apply (missed_count ev N sa sz p sg cov X SN); try assumption; lia. Qed.
Lemma f_one : forall ev N az ze q sg cov a0, exact_eigvalsh ev -> sources_in_noise sh_real N [az] [ze] [q] sg cov -> (1 <= N)%nat -> 0 <= sg ->
  let L := INR ((N + 1) ^ 2) in let a := limit_for ((N + 1) ^ 2) a0 in let d := q * L / (4 * PI) in 1 <= a ->
  (q ^ 2 * (L - 1) / (4 * PI) ^ 2 < a -> estimate_num_sources ev cov a0 None = Ok 0%nat) /\
  (a <= q ^ 2 * (L - 1) / (4 * PI) ^ 2 -> a * (sg + 1 / 10000000) < sg + d -> estimate_num_sources ev cov a0 None = Ok 1%nat) /\
  (a <= q ^ 2 * (L - 1) / (4 * PI) ^ 2 -> sg + d <= a * (sg + 1 / 10000000) -> estimate_num_sources ev cov a0 None = Ok ((N + 1) ^ 2 - 1)%nat).
Proof.
  intros ev N az ze q sg cov a0 X SN HN NN L a d A1. pose proof (one_top ev N az ze q sg cov X SN) as T. fold L d in T. pose proof (spread_one N az ze q) as S1. fold L in S1.
  assert (LB : (4 <= (N + 1) ^ 2)%nat) by (rewrite sq2; nia). split; [|split].
  - intros H. apply (f_gate ev N _ _ _ sg cov a0 X SN). rewrite S1. exact H.
  - intros GO J. apply (f_exact ev N _ _ _ sg cov a0 X SN); cbn [length]; try lia; try assumption; [rewrite S1; exact GO|rewrite T; exact J].
  - intros GO J. rewrite f_count_default. pose proof (ev_length ev N _ _ _ _ _ X SN) as EL. rewrite (f_count_no_jump ev cov (ev cov) a0 a (spread N [az] [ze] [q])).
    + rewrite EL. reflexivity.
    + rewrite EL. lia.
    + apply (limit_threshold ev N _ _ _ _ _ X SN).
    + apply (ev_variance ev N _ _ _ _ _ X SN).
    + rewrite S1. exact GO.
    + intros c Hc JC. rewrite EL in Hc. destruct (Nat.eq_dec c ((N + 1) ^ 2 - 2)) as [->|NE].
      * replace ((N + 1) ^ 2 - 2)%nat with ((N + 1) ^ 2 - length [az] - 1)%nat in JC by (cbn [length]; lia). apply (gap_jump ev N _ _ _ _ _ X SN) in JC; cbn [length] in *; try lia; try assumption. fold a in JC. rewrite T in JC. lra.
      * revert JC. apply (no_noise_jump ev N _ _ _ _ _ X SN); cbn [length]; try lia; assumption.
Qed.
Lemma one_exists N az ze q sg : 0 <= ze <= PI -> 0 < q -> exists cov, sources_in_noise sh_real N [az] [ze] [q] sg cov.
Proof.
  intros Z Q. apply sources_exist; try reflexivity.
  - intros x [<-|[]]. exact Z.
  - intros s t Hs Ht _. cbn in Hs, Ht. lia.
  - intros x [<-|[]]. exact Q.
Qed.
(** one source of power 3 pi in noise of power 10 at order 1 is counted as three *)
Lemma f_overcount_refuted : exists ev N sa sz p sg cov n, exact_eigvalsh ev /\ sources_in_noise sh_real N sa sz p sg cov /\ 0 <= sg /\ estimate_num_sources ev cov None None = Ok n /\ (length sa < n)%nat.
Proof.
  destruct f_eigh_functions as (_ & ev & X). pose proof PI_RGT_0. destruct (one_exists 1 0 0 (3 * PI) 10 ltac:(lra) ltac:(lra)) as (cov & SN).
  exists ev, 1%nat, [0], [0], [3 * PI], 10, cov, 3%nat. split; [exact X|]. split; [exact SN|]. split; [lra|]. split; [|cbn; lia].
  assert (L : INR ((1 + 1) ^ 2) = 4) by (rewrite INR_IZR_INZ; reflexivity).
  destruct (f_one ev 1 0 0 (3 * PI) 10 cov None X SN ltac:(lia) ltac:(lra)) as (_ & _ & A); unfold limit_for in *; rewrite L in *; [lra|]. apply A.
  - replace ((3 * PI) ^ 2 * (4 - 1) / (4 * PI) ^ 2) with (27 / 16) by (field; lra). lra.
  - replace (3 * PI * 4 / (4 * PI)) with 3 by (field; lra). lra.
Qed.
(** one source of power 1 without noise *)
Lemma ex_count : exists ev cov, exact_eigvalsh ev /\ sources_in_noise sh_real 12 [0] [0] [1] 0 cov.
Proof. destruct f_eigh_functions as (_ & ev & X). pose proof PI_RGT_0. destruct (one_exists 12 0 0 1 0 ltac:(lra) ltac:(lra)) as (cov & SN). exists ev, cov. split; assumption. Qed.
