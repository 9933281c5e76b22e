(** Bounded sequences of vectors have convergent subsequences; the norm of a linear
    map is attained on the unit sphere. *)
From Coq Require Import ConstructiveEpsilon ClassicalEpsilon.
From Verif Require Import Base BaseFacts.
Open Scope R_scope.

Definition increasing (phi : nat -> nat) : Prop := forall k, (phi k < phi (S k))%nat.
Lemma increasing_ge phi : increasing phi -> forall k, (k <= phi k)%nat.
Proof. intros H k. induction k; [lia|]. specialize (H k). lia. Qed.
Lemma increasing_lt phi : increasing phi -> forall i j, (i < j)%nat -> (phi i < phi j)%nat.
Proof. intros H i j L. induction L; [apply H|]. specialize (H m). lia. Qed.
Lemma cv_sub u l phi : increasing phi -> Un_cv u l -> Un_cv (fun k => u (phi k)) l.
Proof.
  intros I C e E. destruct (C e E) as [N H]. exists N. intros n Hn. apply H. pose proof (increasing_ge phi I n). lia.
Qed.
Lemma bw1 u M : (forall k, Rabs (u k) <= M) -> exists phi l, increasing phi /\ Un_cv (fun k => u (phi k)) l.
Proof.
  intros B. destruct (Bolzano_Weierstrass u (fun c => - M <= c <= M)) as [l V].
  - apply compact_P3.
  - intros n. specialize (B n). unfold Rabs in B. destruct (Rcase_abs (u n)); lra.
  - assert (NX : forall q k, exists p, (q <= p)%nat /\ Rabs (u p - l) < / (INR k + 1)).
    { intros q k. assert (E : 0 < / (INR k + 1)) by (apply Rinv_0_lt_compat; pose proof (pos_INR k); lra).
      destruct (V (disc l (mkposreal _ E)) q) as (p & P1 & P2); [exists (mkposreal _ E); intros x Hx; exact Hx|]. exists p. split; [exact P1|exact P2]. }
    assert (DX : forall q k, {p | (q <= p)%nat /\ Rabs (u p - l) < / (INR k + 1)}).
    { intros q k. apply constructive_indefinite_ground_description_nat; [|apply NX]. intros p.
      destruct (le_dec q p); [|right; tauto]. destruct (Rlt_dec (Rabs (u p - l)) (/ (INR k + 1))); [left|right]; tauto. }
    set (phi := fix phi k := match k with O => proj1_sig (DX O O) | S k' => proj1_sig (DX (S (phi k')) k) end).
    assert (P : forall k, Rabs (u (phi k) - l) < / (INR k + 1)).
    { intros [|k].
      - cbn [phi]. destruct (DX 0%nat 0%nat) as (p & Q1 & Q2). exact Q2.
      - cbn [phi]. destruct (DX (S (phi k)) (S k)) as (p & Q1 & Q2). exact Q2. }
    exists phi, l. split.
    + intros k. change (phi (S k)) with (proj1_sig (DX (S (phi k)) (S k))). destruct (DX (S (phi k)) (S k)) as (p & Q1 & Q2). cbn [proj1_sig]. lia.
    + intros e E. destruct (archimed_cor1 e E) as (N & HN & N0). exists N. intros n Hn. unfold R_dist.
      eapply Rlt_trans; [apply P|]. eapply Rle_lt_trans; [|exact HN]. apply Rinv_le_contravar; [apply lt_0_INR; exact N0|]. apply le_INR in Hn. lra.
Qed.
Lemma bw n : forall (u : nat -> nat -> R) M, (forall k i, (i < n)%nat -> Rabs (u k i) <= M) ->
  exists phi (l : nat -> R), increasing phi /\ forall i, (i < n)%nat -> Un_cv (fun k => u (phi k) i) (l i).
Proof.
  induction n as [|n IH]; intros u M B.
  - exists (fun k => k), (fun _ => 0). split; [intros k; lia|]. intros; lia.
  - destruct (IH u M) as (phi & l & I & C); [intros; apply B; lia|].
    destruct (bw1 (fun k => u (phi k) n) M) as (psi & x & J & D); [intros; apply B; lia|].
    exists (fun k => phi (psi k)), (fun i => if Nat.eqb i n then x else l i). split.
    + intros k. apply increasing_lt; [exact I|apply J].
    + intros i Hi. destruct (Nat.eqb_spec i n) as [->|N]; [exact D|]. apply (cv_sub (fun k => u (phi k) i) (l i) psi J). apply C. lia.
Qed.
Lemma cv_const c : Un_cv (fun _ => c) c.
Proof. intros e E. exists O. intros n _. unfold R_dist. rewrite Rminus_eq_0, Rabs_R0. exact E. Qed.
Lemma cv_rsum n (f : nat -> nat -> R) l : (forall i, (i < n)%nat -> Un_cv (fun k => f k i) (l i)) -> Un_cv (fun k => rsum n (f k)) (rsum n l).
Proof.
  induction n as [|n IH]; intros H; [exact (cv_const 0)|]. cbn [rsum]. apply CV_plus; [apply IH; intros; apply H; lia|apply H; lia].
Qed.

(** squared length of the image of [v] *)
Definition image2 (m n : nat) (A : nat -> nat -> R) (v : nat -> R) : R := rsum m (fun i => rsum n (fun j => A i j * v j) ^ 2).
Definition unit_vec (n : nat) (v : nat -> R) : Prop := rsum n (fun j => v j ^ 2) = 1.
Lemma cv_pow2 u l : Un_cv u l -> Un_cv (fun k => u k ^ 2) (l ^ 2).
Proof.
  intros C. apply (Un_cv_ext (fun k => u k * u k)); [intros; ring|]. replace (l ^ 2) with (l * l) by ring. apply CV_mult; assumption.
Qed.
Lemma rsum_sq_term n v i : (i < n)%nat -> v i ^ 2 <= rsum n (fun j => v j ^ 2).
Proof. intros Hi. apply (rsum_ge_term n (fun j => v j ^ 2) i); [intros; apply pow2_ge_0|exact Hi]. Qed.
Lemma unit_bound n v i : unit_vec n v -> (i < n)%nat -> Rabs (v i) <= 1.
Proof.
  intros U Hi. pose proof (rsum_sq_term n v i Hi) as B. rewrite U in B. 
  rewrite <- (Rabs_right 1) by lra. apply Rsqr_le_abs_0. unfold Rsqr. lra.
Qed.
Theorem norm_attained m n A : (0 < n)%nat -> exists v, unit_vec n v /\ forall w, unit_vec n w -> image2 m n A w <= image2 m n A v.
Proof.
  intros N0.
  set (E := fun x => exists v, unit_vec n v /\ x = image2 m n A v).
  assert (BD : bound E).
  { exists (rsum m (fun i => rsum n (fun j => Rabs (A i j)) ^ 2)). intros x (v & U & ->). apply rsum_le. intros i Hi. rewrite <- (pow2_abs (rsum n (fun j => A i j * v j))). apply pow_incr. split; [apply Rabs_pos|].
    eapply Rle_trans; [apply rsum_abs|]. apply rsum_le. intros j Hj. rewrite Rabs_mult. pose proof (unit_bound n v j U Hj). pose proof (Rabs_pos (A i j)). nra. }
  assert (NE : exists x, E x).
  { exists (image2 m n A (fun j => if Nat.eqb j 0 then 1 else 0)), (fun j => if Nat.eqb j 0 then 1 else 0). split; [|reflexivity]. unfold unit_vec.
    rewrite (rsum_single n 0 _ N0); [cbn; ring|]. intros i Hi Ni. destruct (Nat.eqb_spec i 0); [lia|ring]. }
  destruct (completeness E BD NE) as [M [UB LUB]].
  assert (SQ : forall k, exists v, unit_vec n v /\ M - / (INR k + 1) < image2 m n A v).
  { intros k. apply Classical_Prop.NNPP. intros C. assert (P : 0 < / (INR k + 1)) by (apply Rinv_0_lt_compat; pose proof (pos_INR k); lra).
    assert (Q : M <= M - / (INR k + 1)); [|lra]. apply LUB. intros x (v & U & ->). apply Rnot_lt_le. intros L. apply C. exists v. auto. }
  set (u := fun k => proj1_sig (constructive_indefinite_description _ (SQ k))).
  assert (U : forall k, unit_vec n (u k) /\ M - / (INR k + 1) < image2 m n A (u k)) by (intros k; exact (proj2_sig (constructive_indefinite_description _ (SQ k)))).
  destruct (bw n u 1) as (phi & l & I & C); [intros k i Hi; apply (unit_bound n); [apply U|exact Hi]|].
  assert (UL : unit_vec n l).
  { unfold unit_vec. apply (UL_sequence (fun k => rsum n (fun j => u (phi k) j ^ 2))).
    - apply (cv_rsum n (fun k j => u (phi k) j ^ 2) (fun j => l j ^ 2)). intros i Hi. apply cv_pow2, C, Hi.
    - apply (Un_cv_ext (fun _ => 1)); [intros k; symmetry; apply U|apply cv_const]. }
  assert (CI : Un_cv (fun k => image2 m n A (u (phi k))) (image2 m n A l)).
  { unfold image2. apply (cv_rsum m (fun k i => rsum n (fun j => A i j * u (phi k) j) ^ 2) (fun i => rsum n (fun j => A i j * l j) ^ 2)). intros i Hi.
    apply cv_pow2. apply (cv_rsum n (fun k j => A i j * u (phi k) j) (fun j => A i j * l j)). intros j Hj. apply CV_mult; [apply cv_const|apply C, Hj]. }
  exists l. split; [exact UL|]. intros w W. apply Rle_trans with M; [apply UB; exists w; auto|].
  apply Rnot_lt_le. intros L. destruct (CI ((M - image2 m n A l) / 2)) as [N1 H1]; [lra|].
  destruct (archimed_cor1 ((M - image2 m n A l) / 2)) as (N2 & H2 & P2); [lra|].
  set (k := Nat.max N1 N2). specialize (H1 k ltac:(lia)). unfold R_dist in H1. apply Rabs_def2 in H1. destruct (U (phi k)) as [_ Q].
  pose proof (increasing_ge phi I k) as G. assert (IR : / (INR (phi k) + 1) <= / INR N2).
  { apply Rinv_le_contravar; [apply lt_0_INR; exact P2|]. assert (INR N2 <= INR (phi k)) by (apply le_INR; lia). lra. }
  lra.
Qed.
