(** Solid harmonics, part 3: orthonormalised harmonics; raising and lowering
    coefficients; summation by parts over the degrees. *)
From Verif Require Import Base BaseFacts M_sph0 P_sph1 P_sph2.

Definition nk (l m : nat) : R :=
  sqrt ((2 * INR l + 1) / (4 * PI) * (INR (fact (l - m)) / INR (fact (l + m)))).
(** sqrt 2 times the normalised harmonic, also for degree 0 *)
Definition tc (l m : nat) (v : V3) : R := sqrt 2 * nk l m * Hc l m v.
Definition ts (l m : nat) (v : V3) : R := sqrt 2 * nk l m * Hs l m v.

Definition al (L m : nat) : R := sqrt (((INR L + 1) * (INR L + 1) - INR m * INR m) / ((2 * INR L + 1) * (2 * INR L + 3))).
Definition aA (L m : nat) : R := sqrt ((INR L + INR m + 1) * (INR L + INR m + 2) / ((2 * INR L + 1) * (2 * INR L + 3))).
Definition aB (L m : nat) : R := sqrt ((INR L - INR m + 1) * (INR L - INR m + 2) / ((2 * INR L + 1) * (2 * INR L + 3))).

Lemma fact_pos n : 0 < INR (fact n).
Proof. apply lt_0_INR, lt_O_fact. Qed.
Lemma fact_S_INR n : INR (fact (S n)) = (INR n + 1) * INR (fact n).
Proof. rewrite fact_simpl, mult_INR, S_INR. reflexivity. Qed.
Lemma nk_nonneg l m : 0 <= nk l m. Proof. apply sqrt_pos. Qed.
Lemma nk_arg_pos l m : 0 < (2 * INR l + 1) / (4 * PI) * (INR (fact (l - m)) / INR (fact (l + m))).
Proof.
  pose proof (pos_INR l). pose proof PI_RGT_0. pose proof (fact_pos (l - m)). pose proof (fact_pos (l + m)).
  apply Rmult_lt_0_compat; apply Rdiv_lt_0_compat; lra.
Qed.
Lemma nk_pos l m : 0 < nk l m. Proof. apply sqrt_lt_R0, nk_arg_pos. Qed.
Lemma nk_sq l m : nk l m * nk l m = (2 * INR l + 1) / (4 * PI) * (INR (fact (l - m)) / INR (fact (l + m))).
Proof. apply sqrt_sqrt. left. apply nk_arg_pos. Qed.
Lemma sq_eq a b : 0 <= a -> 0 <= b -> a * a = b * b -> a = b.
Proof. intros Ha Hb E. apply Rsqr_inj; auto. Qed.
Lemma al_sq L m : (m <= S L)%nat ->
  al L m * al L m = ((INR L + 1) * (INR L + 1) - INR m * INR m) / ((2 * INR L + 1) * (2 * INR L + 3)).
Proof.
  intros H. apply sqrt_sqrt. apply le_INR in H. rewrite S_INR in H. pose proof (pos_INR m). pose proof (pos_INR L).
  apply Rmult_le_pos; [nra|]. left. apply Rinv_0_lt_compat. nra.
Qed.
Lemma aA_sq L m : aA L m * aA L m = (INR L + INR m + 1) * (INR L + INR m + 2) / ((2 * INR L + 1) * (2 * INR L + 3)).
Proof.
  apply sqrt_sqrt. pose proof (pos_INR m). pose proof (pos_INR L).
  apply Rmult_le_pos; [nra|]. left. apply Rinv_0_lt_compat. nra.
Qed.
Lemma aB_sq L m : (m <= S L)%nat -> aB L m * aB L m = (INR L - INR m + 1) * (INR L - INR m + 2) / ((2 * INR L + 1) * (2 * INR L + 3)).
Proof.
  intros H. apply sqrt_sqrt. apply le_INR in H. rewrite S_INR in H. pose proof (pos_INR m). pose proof (pos_INR L).
  apply Rmult_le_pos; [nra|]. left. apply Rinv_0_lt_compat. nra.
Qed.

(** ratios of the normalisations *)
Ltac facts L m k E :=
  assert (E : exists k, L = (m + k)%nat) by (exists (L - m)%nat; lia); destruct E as [k E].

Lemma n1 L m : (m <= L)%nat -> nk L m * (INR L - INR m + 1) = (2 * INR L + 1) * (al L m * nk (S L) m).
Proof.
  intros H. pose proof (pos_INR L) as PL. pose proof (pos_INR m) as Pm. pose proof (le_INR _ _ H) as HI. pose proof PI_RGT_0.
  apply sq_eq.
  - apply Rmult_le_pos; [apply nk_nonneg|lra].
  - apply Rmult_le_pos; [lra|]. apply Rmult_le_pos; [apply sqrt_pos|apply nk_nonneg].
  - transitivity ((nk L m * nk L m) * ((INR L - INR m + 1) * (INR L - INR m + 1))); [ring|].
    transitivity ((2 * INR L + 1) * (2 * INR L + 1) * (al L m * al L m) * (nk (S L) m * nk (S L) m)); [|ring].
    rewrite al_sq, !nk_sq by lia. facts L m k E. subst L.
    replace (m + k - m)%nat with k by lia. replace (S (m + k) - m)%nat with (S k) by lia.
    replace (S (m + k) + m)%nat with (S (m + k + m)) by lia.
    rewrite !fact_S_INR. pose proof (fact_pos k). pose proof (fact_pos (m + k + m)).
    rewrite !S_INR, !plus_INR in *. pose proof (pos_INR k). field. repeat split; lra.
Qed.
Lemma n2 L m : (m <= L)%nat -> nk L m = (2 * INR L + 1) * (aA L m * nk (S L) (S m)).
Proof.
  intros H. pose proof (pos_INR L) as PL. pose proof (pos_INR m) as Pm. pose proof PI_RGT_0.
  apply sq_eq.
  - apply nk_nonneg.
  - apply Rmult_le_pos; [lra|]. apply Rmult_le_pos; [apply sqrt_pos|apply nk_nonneg].
  - transitivity ((2 * INR L + 1) * (2 * INR L + 1) * (aA L m * aA L m) * (nk (S L) (S m) * nk (S L) (S m))); [|ring].
    rewrite aA_sq, !nk_sq. facts L m k E. subst L.
    replace (m + k - m)%nat with k by lia. replace (S (m + k) - S m)%nat with k by lia.
    replace (S (m + k) + S m)%nat with (S (S (m + k + m))) by lia.
    rewrite !fact_S_INR. pose proof (fact_pos k). pose proof (fact_pos (m + k + m)).
    rewrite !S_INR, !plus_INR in *. pose proof (pos_INR k). field. repeat split; lra.
Qed.
Lemma n3 L k : (S k <= L)%nat ->
  nk L (S k) * ((INR L - INR k) * (INR L - INR k + 1)) = (2 * INR L + 1) * (aB L (S k) * nk (S L) k).
Proof.
  intros H. pose proof (pos_INR L) as PL. pose proof (pos_INR k) as Pm. pose proof PI_RGT_0.
  assert (HI : INR k <= INR L) by (apply le_INR; lia).
  apply sq_eq.
  - apply Rmult_le_pos; [apply nk_nonneg|]. apply Rmult_le_pos; lra.
  - apply Rmult_le_pos; [lra|]. apply Rmult_le_pos; [apply sqrt_pos|apply nk_nonneg].
  - transitivity (nk L (S k) * nk L (S k) * ((INR L - INR k) * (INR L - INR k + 1)) * ((INR L - INR k) * (INR L - INR k + 1))); [ring|].
    transitivity ((2 * INR L + 1) * (2 * INR L + 1) * (aB L (S k) * aB L (S k)) * (nk (S L) k * nk (S L) k)); [|ring].
    rewrite aB_sq, !nk_sq by lia. facts L (S k) j E. subst L.
    replace (S k + j - S k)%nat with j by lia. replace (S (S k + j) - k)%nat with (S (S j)) by lia.
    replace (S k + j + S k)%nat with (S (S (k + j + k))) by lia. replace (S (S k + j) + k)%nat with (S (S (k + j + k))) by lia.
    rewrite !fact_S_INR. pose proof (fact_pos j). pose proof (fact_pos (k + j + k)).
    rewrite !S_INR, !plus_INR, !S_INR in *. pose proof (pos_INR j). field. repeat split; lra.
Qed.
Lemma g1 L m : (m <= L)%nat -> nk (S L) m * (INR L + INR m + 1) = (2 * INR L + 3) * (al L m * nk L m).
Proof.
  intros H. pose proof (pos_INR L) as PL. pose proof (pos_INR m) as Pm. pose proof (le_INR _ _ H) as HI. pose proof PI_RGT_0.
  apply sq_eq.
  - apply Rmult_le_pos; [apply nk_nonneg|lra].
  - apply Rmult_le_pos; [lra|]. apply Rmult_le_pos; [apply sqrt_pos|apply nk_nonneg].
  - transitivity ((nk (S L) m * nk (S L) m) * ((INR L + INR m + 1) * (INR L + INR m + 1))); [ring|].
    transitivity ((2 * INR L + 3) * (2 * INR L + 3) * (al L m * al L m) * (nk L m * nk L m)); [|ring].
    rewrite al_sq, !nk_sq by lia. facts L m k E. subst L.
    replace (m + k - m)%nat with k by lia. replace (S (m + k) - m)%nat with (S k) by lia.
    replace (S (m + k) + m)%nat with (S (m + k + m)) by lia.
    rewrite !fact_S_INR. pose proof (fact_pos k). pose proof (fact_pos (m + k + m)).
    rewrite !S_INR, !plus_INR in *. pose proof (pos_INR k). field. repeat split; lra.
Qed.
Lemma g2 L k : (k <= L)%nat ->
  nk (S L) (S k) * ((INR L + INR k + 2) * (INR L + INR k + 1)) = (2 * INR L + 3) * (aA L k * nk L k).
Proof.
  intros H. pose proof (pos_INR L) as PL. pose proof (pos_INR k) as Pm. pose proof PI_RGT_0.
  apply sq_eq.
  - apply Rmult_le_pos; [apply nk_nonneg|]. apply Rmult_le_pos; lra.
  - apply Rmult_le_pos; [lra|]. apply Rmult_le_pos; [apply sqrt_pos|apply nk_nonneg].
  - transitivity (nk (S L) (S k) * nk (S L) (S k) * ((INR L + INR k + 2) * (INR L + INR k + 1)) * ((INR L + INR k + 2) * (INR L + INR k + 1))); [ring|].
    transitivity ((2 * INR L + 3) * (2 * INR L + 3) * (aA L k * aA L k) * (nk L k * nk L k)); [|ring].
    rewrite aA_sq, !nk_sq by lia. facts L k j E. subst L.
    replace (k + j - k)%nat with j by lia. replace (S (k + j) - S k)%nat with j by lia.
    replace (S (k + j) + S k)%nat with (S (S (k + j + k))) by lia.
    rewrite !fact_S_INR. pose proof (fact_pos j). pose proof (fact_pos (k + j + k)).
    rewrite !S_INR, !plus_INR in *. pose proof (pos_INR j). field. repeat split; lra.
Qed.
Lemma g3 L m : (S m <= L)%nat -> nk (S L) m = (2 * INR L + 3) * (aB L (S m) * nk L (S m)).
Proof.
  intros H. pose proof (pos_INR L) as PL. pose proof (pos_INR m) as Pm. pose proof PI_RGT_0.
  apply sq_eq.
  - apply nk_nonneg.
  - apply Rmult_le_pos; [lra|]. apply Rmult_le_pos; [apply sqrt_pos|apply nk_nonneg].
  - transitivity ((2 * INR L + 3) * (2 * INR L + 3) * (aB L (S m) * aB L (S m)) * (nk L (S m) * nk L (S m))); [|ring].
    rewrite aB_sq, !nk_sq by lia. facts L (S m) k E. subst L.
    replace (S m + k - S m)%nat with k by lia. replace (S (S m + k) - m)%nat with (S (S k)) by lia.
    replace (S (S m + k) + m)%nat with (S (S (m + k + m))) by lia. replace (S m + k + S m)%nat with (S (S (m + k + m))) by lia.
    rewrite !fact_S_INR. pose proof (fact_pos k). pose proof (fact_pos (m + k + m)).
    rewrite !S_INR, !plus_INR, !S_INR in *. pose proof (pos_INR k). field. repeat split; lra.
Qed.

(** ** rows of the raising matrices: targets of order L+1, sources gc, gs of order L *)
Definition rowc (L : nat) (w : V3) (m : nat) (gc gs : nat -> R) : R :=
  match m with
  | O => vz w * al L 0 * gc O - aB L 1 * (vx w * gc 1%nat + vy w * gs 1%nat)
  | S k => vz w * al L m * gc m + / 2 * aA L k * (vx w * gc k - vy w * gs k)
           - / 2 * aB L (S m) * (vx w * gc (S m) + vy w * gs (S m))
  end.
Definition rows_ (L : nat) (w : V3) (m : nat) (gc gs : nat -> R) : R :=
  match m with
  | O => 0
  | S k => vz w * al L m * gs m + / 2 * aA L k * (vx w * gs k + vy w * gc k)
           - / 2 * aB L (S m) * (vx w * gs (S m) - vy w * gc (S m))
  end.

Lemma Hc_lt l m v : (l < m)%nat -> Hc l m v = 0.
Proof. intros H. unfold Hc. rewrite Q_lt by auto. ring. Qed.
Lemma Hs_lt l m v : (l < m)%nat -> Hs l m v = 0.
Proof. intros H. unfold Hs. rewrite Q_lt by auto. ring. Qed.
Lemma tc_lt l m v : (l < m)%nat -> tc l m v = 0.
Proof. intros H. unfold tc. rewrite Hc_lt by auto. ring. Qed.
Lemma ts_lt l m v : (l < m)%nat -> ts l m v = 0.
Proof. intros H. unfold ts. rewrite Hs_lt by auto. ring. Qed.
Lemma ts_0 l v : ts l 0 v = 0.
Proof. unfold ts, Hs. simpl sk. ring. Qed.

Lemma nk_al L m v : (m <= S L)%nat -> nk (S L) m * (INR L + INR m + 1) * Hc L m v = (2 * INR L + 3) * (al L m * (nk L m * Hc L m v)).
Proof.
  intros H. destruct (Nat.eq_dec m (S L)) as [->|N].
  - rewrite (Hc_lt L (S L)) by lia. ring.
  - rewrite g1 by lia. ring.
Qed.
Lemma nk_al_s L m v : (m <= S L)%nat -> nk (S L) m * (INR L + INR m + 1) * Hs L m v = (2 * INR L + 3) * (al L m * (nk L m * Hs L m v)).
Proof.
  intros H. destruct (Nat.eq_dec m (S L)) as [->|N].
  - rewrite (Hs_lt L (S L)) by lia. ring.
  - rewrite g1 by lia. ring.
Qed.
Lemma nk_B L m v : nk (S L) m * Hc L (S m) v = (2 * INR L + 3) * (aB L (S m) * (nk L (S m) * Hc L (S m) v)).
Proof.
  destruct (Nat.lt_ge_cases L (S m)) as [H|H].
  - rewrite Hc_lt by lia. ring.
  - rewrite g3 by lia. ring.
Qed.
Lemma nk_B_s L m v : nk (S L) m * Hs L (S m) v = (2 * INR L + 3) * (aB L (S m) * (nk L (S m) * Hs L (S m) v)).
Proof.
  destruct (Nat.lt_ge_cases L (S m)) as [H|H].
  - rewrite Hs_lt by lia. ring.
  - rewrite g3 by lia. ring.
Qed.

(** derivatives of tc, ts *)
Definition dtc l m w v := sqrt 2 * nk l m * dHc l m w v.
Definition dts l m w v := sqrt 2 * nk l m * dHs l m w v.
Lemma tc_deriv l m v w : ddir (tc l m) v w (dtc l m w v).
Proof. apply (derivable_pt_lim_scal _ (sqrt 2 * nk l m) _ _ (Hc_deriv l m v w)). Qed.
Lemma ts_deriv l m v w : ddir (ts l m) v w (dts l m w v).
Proof. apply (derivable_pt_lim_scal _ (sqrt 2 * nk l m) _ _ (Hs_deriv l m v w)). Qed.

Lemma dtc_row L m w v : (m <= S L)%nat ->
  dtc (S L) m w v = (2 * INR L + 3) * rowc L w m (fun k => tc L k v) (fun k => ts L k v).
Proof.
  intros H. unfold dtc. destruct m as [|k].
  - rewrite lower_c0. unfold rowc, tc, ts.
    pose proof (nk_al L 0 v H) as E1. pose proof (nk_B L 0 v) as E2. pose proof (nk_B_s L 0 v) as E3.
    simpl INR in E1. rewrite Rplus_0_r in E1.
    transitivity (sqrt 2 * (vz w * (nk (S L) 0 * (INR L + 1) * Hc L 0 v) - vx w * (nk (S L) 0 * Hc L 1 v) - vy w * (nk (S L) 0 * Hs L 1 v))); [ring|].
    rewrite E1, E2, E3. ring.
  - rewrite lower_c. unfold rowc, tc, ts.
    pose proof (nk_al L (S k) v H) as E1. pose proof (nk_B L (S k) v) as E2. pose proof (nk_B_s L (S k) v) as E3.
    assert (E4 := g2 L k ltac:(lia)). rewrite S_INR in E1.
    transitivity (sqrt 2 * (vz w * (nk (S L) (S k) * (INR L + (INR k + 1) + 1) * Hc L (S k) v)
       + / 2 * (nk (S L) (S k) * ((INR L + INR k + 2) * (INR L + INR k + 1))) * (vx w * Hc L k v - vy w * Hs L k v)
       - / 2 * (vx w * (nk (S L) (S k) * Hc L (S (S k)) v) + vy w * (nk (S L) (S k) * Hs L (S (S k)) v)))); [field|].
    rewrite E1, E2, E3, E4. field.
Qed.
Lemma dts_row L m w v : (m <= S L)%nat ->
  dts (S L) m w v = (2 * INR L + 3) * rows_ L w m (fun k => tc L k v) (fun k => ts L k v).
Proof.
  intros H. unfold dts. destruct m as [|k].
  - unfold rows_, dHs. simpl. ring.
  - rewrite lower_s. unfold rows_, tc, ts.
    pose proof (nk_al_s L (S k) v H) as E1. pose proof (nk_B L (S k) v) as E2. pose proof (nk_B_s L (S k) v) as E3.
    assert (E4 := g2 L k ltac:(lia)). rewrite S_INR in E1.
    transitivity (sqrt 2 * (vz w * (nk (S L) (S k) * (INR L + (INR k + 1) + 1) * Hs L (S k) v)
       + / 2 * (nk (S L) (S k) * ((INR L + INR k + 2) * (INR L + INR k + 1))) * (vx w * Hs L k v + vy w * Hc L k v)
       - / 2 * (vx w * (nk (S L) (S k) * Hs L (S (S k)) v) - vy w * (nk (S L) (S k) * Hc L (S (S k)) v)))); [field|].
    rewrite E1, E2, E3, E4. field.
Qed.

(** raising: the harmonic part of (v.w) * harmonic *)
Definition pic L m w v := dot3 v w * tc L m v - dot3 v v / (2 * INR L + 1) * dtc L m w v.
Definition pis L m w v := dot3 v w * ts L m v - dot3 v v / (2 * INR L + 1) * dts L m w v.

Lemma pic_col0 L w v :
  pic L 0 w v = vz w * al L 0 * tc (S L) 0 v + aA L 0 * (vx w * tc (S L) 1 v + vy w * ts (S L) 1 v).
Proof.
  pose proof (pos_INR L). assert (D : 2 * INR L + 1 <> 0) by lra.
  pose proof (raise_c0 w v L) as E. pose proof (n1 L 0 ltac:(lia)) as N1. pose proof (n2 L 0 ltac:(lia)) as N2.
  simpl INR in N1. rewrite Rminus_0_r in N1.
  apply Rmult_eq_reg_l with (2 * INR L + 1); [|exact D].
  transitivity (sqrt 2 * nk L 0 * ((2 * INR L + 1) * (dot3 v w * Hc L 0 v) - dot3 v v * dHc L 0 w v)).
  { unfold pic, tc, dtc. field. exact D. }
  rewrite E. unfold tc, ts.
  transitivity (sqrt 2 * (vz w * (nk L 0 * (INR L + 1)) * Hc (S L) 0 v + nk L 0 * (vx w * Hc (S L) 1 v + vy w * Hs (S L) 1 v))); [ring|].
  rewrite N1, N2. ring.
Qed.
Lemma pic_col L k w v : (S k <= L)%nat ->
  pic L (S k) w v = vz w * al L (S k) * tc (S L) (S k) v
    + / 2 * aA L (S k) * (vx w * tc (S L) (S (S k)) v + vy w * ts (S L) (S (S k)) v)
    - / 2 * aB L (S k) * (vx w * tc (S L) k v - vy w * ts (S L) k v).
Proof.
  intros H. pose proof (pos_INR L). assert (D : 2 * INR L + 1 <> 0) by lra.
  pose proof (raise_c w v L k H) as E. pose proof (n1 L (S k) H) as N1. pose proof (n2 L (S k) H) as N2. pose proof (n3 L k H) as N3.
  apply Rmult_eq_reg_l with (2 * INR L + 1); [|exact D].
  transitivity (sqrt 2 * nk L (S k) * ((2 * INR L + 1) * (dot3 v w * Hc L (S k) v) - dot3 v v * dHc L (S k) w v)).
  { unfold pic, tc, dtc. field. exact D. }
  rewrite E. unfold tc, ts.
  transitivity (sqrt 2 * (vz w * (nk L (S k) * (INR L - INR (S k) + 1)) * Hc (S L) (S k) v
    + / 2 * nk L (S k) * (vx w * Hc (S L) (S (S k)) v + vy w * Hs (S L) (S (S k)) v)
    - / 2 * (nk L (S k) * ((INR L - INR k) * (INR L - INR k + 1))) * (vx w * Hc (S L) k v - vy w * Hs (S L) k v))); [ring|].
  rewrite N1, N3, N2. ring.
Qed.
Lemma pis_col L k w v : (S k <= L)%nat ->
  pis L (S k) w v = vz w * al L (S k) * ts (S L) (S k) v
    + / 2 * aA L (S k) * (vx w * ts (S L) (S (S k)) v - vy w * tc (S L) (S (S k)) v)
    - / 2 * aB L (S k) * (vx w * ts (S L) k v + vy w * tc (S L) k v).
Proof.
  intros H. pose proof (pos_INR L). assert (D : 2 * INR L + 1 <> 0) by lra.
  pose proof (raise_s w v L k H) as E. pose proof (n1 L (S k) H) as N1. pose proof (n2 L (S k) H) as N2. pose proof (n3 L k H) as N3.
  apply Rmult_eq_reg_l with (2 * INR L + 1); [|exact D].
  transitivity (sqrt 2 * nk L (S k) * ((2 * INR L + 1) * (dot3 v w * Hs L (S k) v) - dot3 v v * dHs L (S k) w v)).
  { unfold pis, ts, dts. field. exact D. }
  rewrite E. unfold tc, ts.
  transitivity (sqrt 2 * (vz w * (nk L (S k) * (INR L - INR (S k) + 1)) * Hs (S L) (S k) v
    + / 2 * nk L (S k) * (vx w * Hs (S L) (S (S k)) v - vy w * Hc (S L) (S (S k)) v)
    - / 2 * (nk L (S k) * ((INR L - INR k) * (INR L - INR k + 1))) * (vx w * Hs (S L) k v + vy w * Hc (S L) k v))); [ring|].
  rewrite N1, N3, N2. ring.
Qed.

(** sum over the degrees of one order; the degree-0 term counts half because tc
    carries a factor sqrt 2 *)
Definition dsum (l : nat) (fc fs : nat -> R) : R :=
  / 2 * fc O + rsum l (fun k => fc (S k) + fs (S k)).

Lemma aB_end1 L : aB L (S L) = 0.
Proof. unfold aB. rewrite S_INR. replace ((INR L - (INR L + 1) + 1) * (INR L - (INR L + 1) + 2) / _) with 0; [apply sqrt_0|]. unfold Rdiv. ring. Qed.
Lemma aB_end2 L : aB L (S (S L)) = 0.
Proof. unfold aB. rewrite !S_INR. replace ((INR L - (INR L + 1 + 1) + 1) * (INR L - (INR L + 1 + 1) + 2) / _) with 0; [apply sqrt_0|]. unfold Rdiv. ring. Qed.
Lemma al_end L : al L (S L) = 0.
Proof. unfold al. rewrite S_INR. replace (((INR L + 1) * (INR L + 1) - (INR L + 1) * (INR L + 1)) / _) with 0; [apply sqrt_0|]. unfold Rdiv. ring. Qed.

(** summation by parts: sources of order L with coefficients gc, gs, raised to
    order L+1 *)
Lemma swap L w v gc gs : gs O = 0 ->
  dsum L (fun m => gc m * pic L m w v) (fun m => gs m * pis L m w v) =
  dsum (S L) (fun m => tc (S L) m v * rowc L w m gc gs) (fun m => ts (S L) m v * rows_ L w m gc gs).
Proof.
  intros G0. unfold dsum.
  set (FZ := fun k => gc (S k) * (vz w * al L (S k) * tc (S L) (S k) v) + gs (S k) * (vz w * al L (S k) * ts (S L) (S k) v)).
  set (FA := fun k => / 2 * aA L k * (gc k * (vx w * tc (S L) (S k) v + vy w * ts (S L) (S k) v) + gs k * (vx w * ts (S L) (S k) v - vy w * tc (S L) (S k) v))).
  set (FB := fun k => / 2 * aB L (S k) * (gc (S k) * (vx w * tc (S L) k v - vy w * ts (S L) k v) + gs (S k) * (vx w * ts (S L) k v + vy w * tc (S L) k v))).
  assert (EL : rsum L (fun k => gc (S k) * pic L (S k) w v + gs (S k) * pis L (S k) w v) =
               rsum L FZ + rsum L (fun k => FA (S k)) - rsum L FB).
  { rewrite (rsum_ext L _ (fun k => FZ k + FA (S k) - FB k)).
    - rewrite (rsum_minus L (fun k => FZ k + FA (S k)) FB), (rsum_plus L FZ (fun k => FA (S k))). reflexivity.
    - intros k Hk. rewrite pic_col, pis_col by lia. unfold FZ, FA, FB. ring. }
  assert (ER : rsum (S L) (fun k => tc (S L) (S k) v * rowc L w (S k) gc gs + ts (S L) (S k) v * rows_ L w (S k) gc gs) =
               rsum (S L) FZ + rsum (S L) FA - rsum (S L) (fun k => FB (S k))).
  { rewrite (rsum_ext (S L) _ (fun k => FZ k + FA k - FB (S k))).
    - rewrite (rsum_minus (S L) (fun k => FZ k + FA k) (fun k => FB (S k))), (rsum_plus (S L) FZ FA). reflexivity.
    - intros k Hk. unfold rowc, rows_, FZ, FA, FB. ring. }
  assert (EZ : rsum (S L) FZ = rsum L FZ). { simpl. unfold FZ at 2. rewrite al_end. ring. }
  assert (EA : rsum (S L) FA = FA O + rsum L (fun k => FA (S k))) by apply rsum_shift.
  assert (EB : FB O + rsum (S L) (fun k => FB (S k)) = rsum L FB).
  { rewrite <- rsum_shift. simpl rsum. unfold FB at 2 3. rewrite aB_end1, aB_end2. ring. }
  rewrite EL, ER, EZ, EA, <- EB, pic_col0. unfold FA at 2, FB at 1. unfold rowc. rewrite G0, ts_0. field.
Qed.
