(** Solid harmonics, part 1: homogeneous derivatives of the Legendre polynomials
    Q l m (z, s), s standing for r^2, and their contiguity relations. *)
From Verif Require Import Base BaseFacts M_sph0.

(** pair (Q_{m+k-1,m}, Q_{m+k,m}) *)
Fixpoint q2 (m k : nat) (z s : R) : R * R :=
  match k with
  | O => (0, dfact m)
  | S j => let (a, b) := q2 m j z s in
           (b, ((2 * INR (m + j) + 1) * z * b - INR (2 * m + j) * s * a) / (INR j + 1))
  end.
Definition Q (l m : nat) (z s : R) : R :=
  if Nat.leb m l then snd (q2 m (l - m) z s) else 0.
(** Q at l-1, zero below *)
Definition Qp (l m : nat) (z s : R) : R := match l with O => 0 | S k => Q k m z s end.

Lemma q2_fst m k z s : fst (q2 m (S k) z s) = snd (q2 m k z s).
Proof. simpl. destruct (q2 m k z s); reflexivity. Qed.
Lemma Q_lt l m z s : (l < m)%nat -> Q l m z s = 0.
Proof. intros H. unfold Q. destruct (Nat.leb_spec m l); [lia|reflexivity]. Qed.
Lemma Q_diag m z s : Q m m z s = dfact m.
Proof. unfold Q. rewrite Nat.leb_refl, Nat.sub_diag. reflexivity. Qed.
Lemma Qp_k m k z s : Qp (m + k) m z s = fst (q2 m k z s).
Proof.
  destruct k.
  - rewrite Nat.add_0_r. simpl. destruct m; simpl; [reflexivity|]. apply Q_lt. lia.
  - rewrite q2_fst. replace (m + S k)%nat with (S (m + k)) by lia. simpl.
    unfold Q. destruct (Nat.leb_spec m (m + k)); [|lia].
    replace (m + k - m)%nat with k by lia. reflexivity.
Qed.
Lemma Q_k m k z s : Q (m + k) m z s = snd (q2 m k z s).
Proof.
  unfold Q. destruct (Nat.leb_spec m (m + k)); [|lia].
  replace (m + k - m)%nat with k by lia. reflexivity.
Qed.
(** (q1) *)
Lemma Q_rec l m z s : (m <= l)%nat ->
  (INR l - INR m + 1) * Q (S l) m z s =
  (2 * INR l + 1) * z * Q l m z s - (INR l + INR m) * s * Qp l m z s.
Proof.
  intros H. assert (E : l = (m + (l - m))%nat) by lia.
  set (k := (l - m)%nat) in *. rewrite E.
  replace (S (m + k)) with (m + S k)%nat by lia.
  rewrite Q_k, Qp_k, Q_k.
  assert (E3 : snd (q2 m (S k) z s) =
     ((2 * INR (m + k) + 1) * z * snd (q2 m k z s) - INR (2 * m + k) * s * fst (q2 m k z s)) / (INR k + 1)).
  { simpl. destruct (q2 m k z s); reflexivity. }
  rewrite E3, !plus_INR, mult_INR. simpl (INR 2).
  pose proof (pos_INR k). field. lra.
Qed.
(** the same with the vanishing cases l < m: then both sides are 0 except l = m-1 *)

Lemma Qp_S l m z s : Qp (S l) m z s = Q l m z s. Proof. reflexivity. Qed.

(** (a) and (b) *)
Lemma Q_ab l m z s :
  Q (S l) (S m) z s = z * Q l (S m) z s + (INR l + INR m + 1) * Q l m z s /\
  z * Q l (S m) z s - s * Qp l (S m) z s = (INR l - INR m) * Q l m z s.
Proof.
  destruct (Nat.lt_ge_cases l m) as [H|H].
  - rewrite !Q_lt by lia. destruct l; simpl Qp; [|rewrite Q_lt by lia]; split; ring.
  - assert (EX : exists k, l = (m + k)%nat) by (exists (l - m)%nat; lia). destruct EX as [k EX]. subst l. clear H.
    revert k.
    assert (ST : forall k,
       (Q (S (m + k)) (S m) z s = z * Q (m + k) (S m) z s + (INR (m + k) + INR m + 1) * Q (m + k) m z s /\
        z * Q (m + k) (S m) z s - s * Qp (m + k) (S m) z s = (INR (m + k) - INR m) * Q (m + k) m z s) /\
       (Q (m + k) (S m) z s = z * Qp (m + k) (S m) z s + (INR (m + k) + INR m) * Qp (m + k) m z s)).
    { induction k as [|k IH].
      - rewrite Nat.add_0_r. rewrite !Q_diag. rewrite (Q_lt m (S m)) by lia.
        assert (E : Qp m (S m) z s = 0) by (destruct m; simpl; [|apply Q_lt]; auto; lia).
        assert (E2 : Qp m m z s = 0) by (destruct m; simpl; [|apply Q_lt]; auto; lia).
        rewrite E, E2. simpl. repeat split; try ring.
      - destruct IH as [[A B] C0]. replace (m + S k)%nat with (S (m + k)) by lia.
        rewrite !Qp_S. set (l := (m + k)%nat) in *.
        assert (R1 : (m <= l)%nat) by (unfold l; lia).
        assert (LM : INR l = INR m + INR k) by (unfold l; apply plus_INR).
        pose proof (pos_INR m). pose proof (pos_INR k).
        pose proof (Q_rec l m z s R1) as RM.
        assert (B' : z * Q (S l) (S m) z s - s * Q l (S m) z s = (INR (S l) - INR m) * Q (S l) m z s).
        { rewrite S_INR. replace (INR l + 1 - INR m) with (INR l - INR m + 1) by ring.
          rewrite RM, A.
          assert (z * (z * Q l (S m) z s) = z * (s * Qp l (S m) z s + (INR l - INR m) * Q l m z s))
            by (rewrite <- B; ring).
          assert (s * Q l (S m) z s = s * (z * Qp l (S m) z s + (INR l + INR m) * Qp l m z s))
            by (rewrite <- C0; ring).
          nra. }
        split; [split; [|exact B']|rewrite A, S_INR; ring].
        assert (R2 : (S m <= S l)%nat) by lia.
        pose proof (Q_rec (S l) (S m) z s R2) as RM2. rewrite Qp_S in RM2.
        rewrite !S_INR in *.
        assert (N : INR l - INR m + 1 <> 0) by lra.
        apply Rmult_eq_reg_l with (INR l + 1 - (INR m + 1) + 1).
        + rewrite RM2.
          assert (z * Q (S l) (S m) z s - s * Q l (S m) z s - (INR l + 1 - INR m) * Q (S l) m z s = 0) by lra.
          assert ((INR l + INR m + 2) * (z * Q (S l) (S m) z s - s * Q l (S m) z s - (INR l + 1 - INR m) * Q (S l) m z s) = 0)
            by (rewrite H1; ring).
          nra.
        + lra. }
    intros k. exact (proj1 (ST k)).
Qed.
Lemma Q_a l m z s : Q (S l) (S m) z s = z * Q l (S m) z s + (INR l + INR m + 1) * Q l m z s.
Proof. apply Q_ab. Qed.
Lemma Q_b l m z s : z * Q l (S m) z s - s * Qp l (S m) z s = (INR l - INR m) * Q l m z s.
Proof. apply Q_ab. Qed.
Lemma Qp_a l m z s : Q l (S m) z s = z * Qp l (S m) z s + (INR l + INR m) * Qp l m z s.
Proof.
  destruct l; simpl Qp.
  - rewrite Q_lt by lia. ring.
  - rewrite Q_a, S_INR. ring.
Qed.
(** (q2) *)
Lemma Q_up l m z s : (2 * INR l + 1) * Q l m z s = Q (S l) (S m) z s - s * Qp l (S m) z s.
Proof. pose proof (Q_a l m z s). pose proof (Q_b l m z s). nra. Qed.
(** (c) *)
Lemma Q_c l m z s : (s - z * z) * Q l (S m) z s = (INR l + INR m) * s * Qp l m z s - (INR l - INR m) * z * Q l m z s.
Proof.
  pose proof (Q_b l m z s) as B. pose proof (Qp_a l m z s) as A.
  assert (z * (z * Q l (S m) z s - s * Qp l (S m) z s) = z * ((INR l - INR m) * Q l m z s)) by (rewrite B; ring).
  assert (s * Q l (S m) z s = s * (z * Qp l (S m) z s + (INR l + INR m) * Qp l m z s)) by (rewrite <- A; ring).
  nra.
Qed.
(** (q1) in all cases but l = m-1 *)
Lemma Q_rec' l m z s : (S l <> m)%nat ->
  (INR l - INR m + 1) * Q (S l) m z s =
  (2 * INR l + 1) * z * Q l m z s - (INR l + INR m) * s * Qp l m z s.
Proof.
  intros N. destruct (Nat.lt_ge_cases l m) as [H|H]; [|apply Q_rec; auto].
  rewrite !Q_lt by lia. destruct l; simpl Qp; [|rewrite Q_lt by lia]; ring.
Qed.
(** (q3) *)
Lemma Q_rho l m z s :
  (2 * INR l + 1) * ((s - z * z) * Q l (S m) z s) =
  (INR l + INR m + 1) * (INR l + INR m) * s * Qp l m z s -
  (INR l - INR m) * (INR l - INR m + 1) * Q (S l) m z s.
Proof.
  destruct (Nat.eq_dec (S l) m) as [E|N].
  - subst m. rewrite (Q_lt l (S (S l))) by lia. destruct l; simpl Qp; [|rewrite Q_lt by lia].
    + simpl. ring.
    + rewrite !S_INR. ring.
  - pose proof (Q_c l m z s) as C. pose proof (Q_rec' l m z s N) as RR.
    assert ((INR l - INR m) * ((INR l - INR m + 1) * Q (S l) m z s) =
            (INR l - INR m) * ((2 * INR l + 1) * z * Q l m z s - (INR l + INR m) * s * Qp l m z s))
      by (rewrite RR; ring).
    rewrite C. nra.
Qed.
(** (q6) *)
Lemma Q_6 l m z s :
  2 * (INR m + 1) * Q l (S m) z s - (s - z * z) * Qp l (S (S m)) z s =
  (INR l + INR m + 1) * (INR l + INR m) * Qp l m z s.
Proof.
  destruct l; simpl Qp.
  - rewrite Q_lt by lia. ring.
  - rewrite (Q_c l (S m)). rewrite Q_a.
    pose proof (Q_b l m z s) as B. rewrite !S_INR.
    assert ((INR l + (INR m + 1)) * (z * Q l (S m) z s - s * Qp l (S m) z s) =
            (INR l + (INR m + 1)) * ((INR l - INR m) * Q l m z s)) by (rewrite B; ring).
    nra.
Qed.

(** derivatives of Q along any curve *)
Lemma dpl_ext f g x d : (forall y, f y = g y) -> derivable_pt_lim f x d -> derivable_pt_lim g x d.
Proof. intros E H eps He. destruct (H eps He) as [del P]. exists del. intros h. rewrite <- !E. apply P. Qed.
Lemma dpl_val f x d d' : d = d' -> derivable_pt_lim f x d -> derivable_pt_lim f x d'.
Proof. intros <-. auto. Qed.

Lemma Q_deriv (fz fs : R -> R) t dz ds l m :
  derivable_pt_lim fz t dz -> derivable_pt_lim fs t ds ->
  derivable_pt_lim (fun t => Q l m (fz t) (fs t)) t
    (dz * Q l (S m) (fz t) (fs t) - ds / 2 * Qp l (S m) (fz t) (fs t)).
Proof.
  intros Hz Hs.
  destruct (Nat.lt_ge_cases l m) as [H|H].
  - apply dpl_val with 0.
    + rewrite (Q_lt l (S m)) by lia. destruct l; simpl Qp; [|rewrite Q_lt by lia]; lra.
    + apply dpl_ext with (fct_cte 0); [|apply derivable_pt_lim_const].
      intros y. rewrite Q_lt by lia. reflexivity.
  - assert (EX : exists k, l = (m + k)%nat) by (exists (l - m)%nat; lia). destruct EX as [k EX]. subst l. clear H.
    assert (ST : forall k,
      derivable_pt_lim (fun t => Q (m + k) m (fz t) (fs t)) t
        (dz * Q (m + k) (S m) (fz t) (fs t) - ds / 2 * Qp (m + k) (S m) (fz t) (fs t)) /\
      derivable_pt_lim (fun t => Qp (m + k) m (fz t) (fs t)) t
        (dz * Qp (m + k) (S m) (fz t) (fs t) - ds / 2 * Qp (pred (m + k)) (S m) (fz t) (fs t))).
    { clear k. induction k as [|k [IH1 IH2]].
      - rewrite Nat.add_0_r. split.
        + apply dpl_val with 0.
          * rewrite (Q_lt m (S m)) by lia. destruct m; simpl Qp; [|rewrite Q_lt by lia]; lra.
          * apply dpl_ext with (fct_cte (dfact m)); [|apply derivable_pt_lim_const].
            intros y. rewrite Q_diag. reflexivity.
        + apply dpl_val with 0.
          * destruct m as [|[|m]]; simpl Qp; [lra|rewrite Q_lt by lia; lra|rewrite !Q_lt by lia; lra].
          * apply dpl_ext with (fct_cte 0); [|apply derivable_pt_lim_const].
            intros y. destruct m; simpl Qp; [reflexivity|rewrite Q_lt by lia; reflexivity].
      - replace (m + S k)%nat with (S (m + k)) by lia. simpl pred. rewrite !Qp_S.
        split; [|exact IH1].
        set (l := (m + k)%nat) in *.
        assert (LM : INR l = INR m + INR k) by (unfold l; apply plus_INR).
        assert (ML : (m <= l)%nat) by (unfold l; lia).
        pose proof (pos_INR m). pose proof (pos_INR k).
        set (D := INR l - INR m + 1). assert (DN : D <> 0) by (unfold D; lra).
        apply dpl_ext with (fun t => / D * ((2 * INR l + 1) * (fz t * Q l m (fz t) (fs t))
                                            - (INR l + INR m) * (fs t * Qp l m (fz t) (fs t)))).
        { intros y. pose proof (Q_rec l m (fz y) (fs y) ML) as RR. fold D in RR.
          apply Rmult_eq_reg_l with D; [|exact DN]. rewrite RR. field. exact DN. }
        pose proof (derivable_pt_lim_mult _ _ _ _ _ Hz IH1) as M1.
        pose proof (derivable_pt_lim_mult _ _ _ _ _ Hs IH2) as M2.
        pose proof (derivable_pt_lim_scal _ (2 * INR l + 1) _ _ M1) as S1.
        pose proof (derivable_pt_lim_scal _ (INR l + INR m) _ _ M2) as S2.
        pose proof (derivable_pt_lim_scal _ (/ D) _ _ (derivable_pt_lim_minus _ _ _ _ _ S1 S2)) as F.
        eapply dpl_val; [|exact F]. cbv beta.
        set (z := fz t) in *. set (s := fs t) in *.
        apply Rmult_eq_reg_l with D; [|exact DN]. rewrite <- Rmult_assoc, Rinv_r, Rmult_1_l by exact DN.
        (* coefficients of dz and ds *)
        assert (CZ : D * Q (S l) (S m) z s =
           (2 * INR l + 1) * (Q l m z s + z * Q l (S m) z s) - (INR l + INR m) * (s * Qp l (S m) z s)).
        { unfold D. pose proof (Q_a l m z s) as A. pose proof (Q_b l m z s) as B.
          rewrite A.
          assert (E : (INR l + INR m) * (z * Q l (S m) z s - s * Qp l (S m) z s) =
                      (INR l + INR m) * ((INR l - INR m) * Q l m z s)) by (rewrite B; ring).
          lra. }
        assert (CS : D * Q l (S m) z s =
           (2 * INR l + 1) * (z * Qp l (S m) z s) + (INR l + INR m) * (2 * Qp l m z s - s * Qp (pred l) (S m) z s)).
        { unfold D. pose proof (Qp_a l m z s) as A.
          destruct l as [|l'].
          - simpl Qp. rewrite Q_lt by lia. simpl. ring.
          - simpl pred in *. simpl Qp at 1 2 in A. simpl Qp at 1 2.
            assert (N : (S l' <> m \/ S l' = m)%nat) by lia.
            pose proof (Q_b l' m z s) as B.
            rewrite A. rewrite !S_INR in *.
            assert (E : (INR l' + 1 + INR m) * (z * Q l' (S m) z s - s * Qp l' (S m) z s) =
                        (INR l' + 1 + INR m) * ((INR l' - INR m) * Q l' m z s)) by (rewrite B; ring).
            lra. }
        transitivity (dz * (D * Q (S l) (S m) z s) - ds / 2 * (D * Q l (S m) z s)); [|ring].
        rewrite CZ, CS. field. }
    exact (proj1 (ST k)).
Qed.
