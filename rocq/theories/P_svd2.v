(** Every real matrix has a singular value decomposition. *)
From Verif Require Import Base BaseFacts S_sph S_decoder2 P_grids3 P_svd1.
Open Scope R_scope.

Definition fm : Type := nat -> nat -> R.
Definition orth (n : nat) (U : fm) : Prop :=
  (forall i j, (i < n)%nat -> (j < n)%nat -> rsum n (fun k => U k i * U k j) = delta i j) /\
  (forall i j, (i < n)%nat -> (j < n)%nat -> rsum n (fun k => U i k * U j k) = delta i j).
Definition mm (n : nat) (A B : fm) : fm := fun i j => rsum n (fun k => A i k * B k j).
Definition trf (A : fm) : fm := fun i j => A j i.
Definition blk (A : fm) : fm := fun i j => match i, j with O, O => 1 | S i', S j' => A i' j' | _, _ => 0 end.

Lemma mm_assoc n m A B D i j : mm m (mm n A B) D i j = mm n A (mm m B D) i j.
Proof.
  unfold mm. rewrite (rsum_ext m _ (fun k => rsum n (fun q => A i q * B q k * D k j))) by (intros; rewrite rsum_scal_r; reflexivity).
  rewrite rsum_swap. apply rsum_ext. intros q _. rewrite <- rsum_scal. apply rsum_ext. intros. ring.
Qed.
Lemma mm_ext n A A' B B' i j : (forall k, (k < n)%nat -> A i k = A' i k) -> (forall k, (k < n)%nat -> B k j = B' k j) -> mm n A B i j = mm n A' B' i j.
Proof. intros H K. apply rsum_ext. intros k Hk. rewrite H, K by exact Hk. reflexivity. Qed.
Lemma mm_delta_l n A i j : (i < n)%nat -> mm n delta A i j = A i j.
Proof. intros Hi. unfold mm. apply (rsum_delta_l n i (fun k => A k j) Hi). Qed.
Lemma mm_delta_r n A i j : (j < n)%nat -> mm n A delta i j = A i j.
Proof. intros Hj. unfold mm. rewrite (rsum_ext n _ (fun k => delta j k * A i k)) by (intros; rewrite (delta_sym j); ring). apply (rsum_delta_l n j (fun k => A i k) Hj). Qed.
Lemma trf_mm n A B i j : trf (mm n A B) i j = mm n (trf B) (trf A) i j.
Proof. unfold trf, mm. apply rsum_ext. intros. ring. Qed.
Lemma orth_l n U i j : orth n U -> (i < n)%nat -> (j < n)%nat -> mm n (trf U) U i j = delta i j.
Proof. intros [A _] Hi Hj. apply A; assumption. Qed.
Lemma orth_r n U i j : orth n U -> (i < n)%nat -> (j < n)%nat -> mm n U (trf U) i j = delta i j.
Proof. intros [_ A] Hi Hj. apply A; assumption. Qed.
Lemma orth_of n U : (forall i j, (i < n)%nat -> (j < n)%nat -> mm n (trf U) U i j = delta i j) -> (forall i j, (i < n)%nat -> (j < n)%nat -> mm n U (trf U) i j = delta i j) -> orth n U.
Proof. intros A B. split; [exact A|exact B]. Qed.
Lemma orth_tr n U : orth n U -> orth n (trf U).
Proof. intros [A B]. split; [exact B|exact A]. Qed.
Lemma orth_mm n U V : orth n U -> orth n V -> orth n (mm n U V).
Proof.
  intros HU HV. apply orth_of; intros i j Hi Hj.
  - transitivity (mm n (mm n (trf V) (trf U)) (mm n U V) i j); [apply mm_ext; intros; [apply trf_mm|reflexivity]|]. rewrite mm_assoc.
    rewrite (mm_ext n (trf V) (trf V) _ V) by (try reflexivity; intros k Hk; rewrite <- mm_assoc; rewrite (mm_ext n _ delta V V) by (try reflexivity; intros; apply orth_l; assumption); apply mm_delta_l; exact Hk).
    apply orth_l; assumption.
  - transitivity (mm n (mm n U V) (mm n (trf V) (trf U)) i j); [apply mm_ext; intros; [reflexivity|apply trf_mm]|]. rewrite mm_assoc.
    rewrite (mm_ext n U U _ (trf U)) by (try reflexivity; intros k Hk; rewrite <- mm_assoc; rewrite (mm_ext n _ delta (trf U) (trf U)) by (try reflexivity; intros; apply orth_r; assumption); apply mm_delta_l; exact Hk).
    apply orth_r; assumption.
Qed.
Lemma orth_delta n : orth n delta.
Proof.
  split; intros i j Hi Hj.
  - rewrite (rsum_ext n _ (fun k => delta i k * delta k j)) by (intros; rewrite (delta_sym i); reflexivity). apply (mm_delta_l n delta i j Hi).
  - rewrite (rsum_ext n _ (fun k => delta i k * delta k j)) by (intros; rewrite (delta_sym j); reflexivity). apply (mm_delta_l n delta i j Hi).
Qed.
Lemma delta_S i j : delta (S i) (S j) = delta i j. Proof. reflexivity. Qed.
Lemma rsum_zero n : rsum n (fun _ => 0) = 0. Proof. apply rsum_0. reflexivity. Qed.
Lemma orth_blk n U : orth n U -> orth (S n) (blk U).
Proof.
  intros [A B]. split; intros [|i] [|j] Hi Hj; rewrite rsum_shift; cbn [blk].
  - rewrite (rsum_0 n) by (intros; ring). unfold delta. cbn. ring.
  - rewrite (rsum_0 n) by (intros; ring). unfold delta. cbn. ring.
  - rewrite (rsum_0 n) by (intros; ring). unfold delta. cbn. ring.
  - rewrite A by lia. rewrite delta_S. ring.
  - rewrite (rsum_0 n) by (intros; ring). unfold delta. cbn. ring.
  - rewrite (rsum_0 n) by (intros; ring). unfold delta. cbn. ring.
  - rewrite (rsum_0 n) by (intros; ring). unfold delta. cbn. ring.
  - rewrite B by lia. rewrite delta_S. ring.
Qed.

(** a reflection that takes the first unit vector to [v] *)
Lemma householder n v : unit_vec (S n) v -> exists H, orth (S n) H /\ forall i, (i < S n)%nat -> H i 0%nat = v i.
Proof.
  intros U. set (w := fun i => v i - delta i 0). set (q := rsum (S n) (fun i => w i ^ 2)).
  assert (QV : q = 2 - 2 * v 0%nat).
  { unfold q, w. rewrite (rsum_ext (S n) _ (fun i => v i ^ 2 + delta 0 i * (1 - 2 * v i))).
    - rewrite rsum_plus, U. rewrite (rsum_delta_l (S n) 0 (fun i => 1 - 2 * v i)) by lia. ring.
    - intros i Hi. rewrite (delta_sym i 0). unfold delta. destruct (Nat.eqb 0 i); ring. }
  destruct (Req_dec q 0) as [Z|NZ].
  - exists delta. split; [apply orth_delta|]. intros i Hi.
    assert (W : w i = 0). { pose proof (rsum_nonneg_0 (S n) _ (fun i _ => pow2_ge_0 (w i)) Z i Hi) as E. cbn beta in E. apply Rsqr_0_uniq. rewrite Rsqr_pow2. exact E. }
    unfold w in W. lra.
  - set (H := fun i j => delta i j - 2 / q * (w i * w j)). exists H.
    assert (SY : forall i j, H i j = H j i) by (intros; unfold H; rewrite delta_sym; ring).
    assert (O : forall i j, (i < S n)%nat -> (j < S n)%nat -> rsum (S n) (fun k => H k i * H k j) = delta i j).
    { intros i j Hi Hj. rewrite (rsum_ext (S n) _ (fun k => delta i k * delta k j + - (2 / q) * w j * (delta i k * w k) + - (2 / q) * w i * (delta j k * w k) + (2 / q * (2 / q) * (w i * w j)) * w k ^ 2)).
      - rewrite !rsum_plus, !rsum_scal. rewrite (rsum_delta_l (S n) i (fun k => delta k j) Hi), (rsum_delta_l (S n) i w Hi), (rsum_delta_l (S n) j w Hj). fold q. field. exact NZ.
      - intros k Hk. unfold H. rewrite (delta_sym k i), (delta_sym k j). ring. }
    split; [split; [exact O|]|].
    + intros i j Hi Hj. rewrite <- (O i j Hi Hj). apply rsum_ext. intros k Hk. rewrite (SY i k), (SY j k). reflexivity.
    + intros i Hi. unfold H. assert (W0 : w 0%nat = - q / 2) by (rewrite QV; unfold w, delta; cbn; field). rewrite W0. replace (2 / q * (w i * (- q / 2))) with (- w i) by (field; exact NZ). unfold w. ring.
Qed.

Definition svdf (m n : nat) (Y U : fm) (sv : list R) (V : fm) : Prop :=
  orth m U /\ orth n V /\ length sv = Nat.min m n /\ (forall x, In x sv -> 0 <= x) /\
  forall i j, (i < m)%nat -> (j < n)%nat -> Y i j = rsum (length sv) (fun k => U i k * nth k sv 0 * V k j).
Lemma image_scale m n A v c : image2 m n A (fun j => c * v j) = c ^ 2 * image2 m n A v.
Proof.
  unfold image2. rewrite <- rsum_scal. apply rsum_ext. intros i _. rewrite (rsum_ext n _ (fun j => c * (A i j * v j))) by (intros; ring). rewrite rsum_scal. ring.
Qed.
(** lengths do not change under orthogonal maps *)
Lemma orth_length n U x : orth n U -> rsum n (fun i => rsum n (fun j => U i j * x j) ^ 2) = rsum n (fun j => x j ^ 2).
Proof.
  intros [A _]. rewrite (rsum_ext n _ (fun i => rsum n (fun j => rsum n (fun k => x j * x k * (U i j * U i k))))).
  - rewrite rsum_swap. apply rsum_ext. intros j Hj. rewrite rsum_swap. rewrite (rsum_ext n _ (fun k => delta j k * (x j * x k))) by (intros k Hk; rewrite rsum_scal, A by assumption; ring).
    rewrite (rsum_delta_l n j (fun k => x j * x k) Hj). ring.
  - intros i Hi. replace (rsum n (fun j => U i j * x j) ^ 2) with (rsum n (fun j => U i j * x j) * rsum n (fun j => U i j * x j)) by ring.
    rewrite rsum_mult. apply rsum_ext. intros j Hj. apply rsum_ext. intros k Hk. ring.
Qed.
Theorem svd_exists_f : forall m n (Y : fm), exists U sv V, svdf m n Y U sv V.
Proof.
  induction m as [|m IH]; intros n Y.
  { exists delta, [], delta. split; [apply orth_delta|]. split; [apply orth_delta|]. split; [reflexivity|]. split; [intros x []|]. intros; lia. }
  destruct n as [|n].
  { exists delta, [], delta. split; [apply orth_delta|]. split; [apply orth_delta|]. split; [reflexivity|]. split; [intros x []|]. intros; lia. }
  destruct (norm_attained (S m) (S n) Y ltac:(lia)) as (v & UV & MX). set (M := image2 (S m) (S n) Y v) in *.
  assert (M0 : 0 <= M) by (apply rsum_nonneg; intros; apply pow2_ge_0).
  assert (SC : forall x, image2 (S m) (S n) Y x <= M * rsum (S n) (fun j => x j ^ 2)).
  { intros x. set (r := rsum (S n) (fun j => x j ^ 2)). assert (R0 : 0 <= r) by (apply rsum_nonneg; intros; apply pow2_ge_0).
    destruct (Req_dec r 0) as [Z|NZ].
    - assert (X0 : forall j, (j < S n)%nat -> x j = 0).
      { intros j Hj. pose proof (rsum_nonneg_0 (S n) _ (fun j _ => pow2_ge_0 (x j)) Z j Hj) as E. cbn beta in E. apply Rsqr_0_uniq. rewrite Rsqr_pow2. exact E. }
      rewrite Z, Rmult_0_r. unfold image2. rewrite (rsum_0 (S m)); [lra|]. intros i Hi. rewrite (rsum_0 (S n)); [ring|]. intros j Hj. rewrite X0 by exact Hj. ring.
    - pose proof (sqrt_lt_R0 r ltac:(lra)) as S0. pose proof (sqrt_sqrt r R0) as SS.
      assert (UX : unit_vec (S n) (fun j => / sqrt r * x j)).
      { unfold unit_vec. rewrite (rsum_ext (S n) _ (fun j => (/ sqrt r) ^ 2 * x j ^ 2)) by (intros; ring). rewrite rsum_scal. fold r. rewrite <- SS at 2. field. lra. }
      specialize (MX _ UX). rewrite image_scale in MX. apply (Rmult_le_reg_l ((/ sqrt r) ^ 2)); [apply pow_lt, Rinv_0_lt_compat; exact S0|].
      replace ((/ sqrt r) ^ 2 * (M * r)) with M; [exact MX|]. rewrite <- SS at 2. field. lra. }
  destruct (householder n v UV) as (H & OH & HV).
  destruct (Req_dec M 0) as [Z|NZ].
  { assert (Y0 : forall i j, (i < S m)%nat -> (j < S n)%nat -> Y i j = 0).
    { intros i j Hi Hj. specialize (SC (delta j)). rewrite Z, Rmult_0_l in SC.
      assert (E : image2 (S m) (S n) Y (delta j) = 0) by (apply Rle_antisym; [exact SC|apply rsum_nonneg; intros; apply pow2_ge_0]).
      pose proof (rsum_nonneg_0 (S m) _ (fun i _ => pow2_ge_0 (rsum (S n) (fun k => Y i k * delta j k))) E i Hi) as Q. cbn beta in Q.
      rewrite (rsum_ext (S n) _ (fun k => delta j k * Y i k)) in Q by (intros; ring). rewrite (rsum_delta_l (S n) j (Y i) Hj) in Q. apply Rsqr_0_uniq. rewrite Rsqr_pow2. exact Q. }
    exists delta, (repeat 0 (S (Nat.min m n))), delta. split; [apply orth_delta|]. split; [apply orth_delta|]. split; [apply repeat_length|]. split; [intros x I; apply repeat_spec in I; lra|].
    intros i j Hi Hj. rewrite Y0 by assumption. symmetry. apply rsum_0. intros k Hk. rewrite nth_repeat. ring. }
  pose proof (sqrt_lt_R0 M ltac:(lra)) as S0. pose proof (sqrt_sqrt M M0) as SS. set (s := sqrt M) in *.
  set (y := fun i => rsum (S n) (fun j => Y i j * v j)). set (u := fun i => / s * y i).
  assert (UU : unit_vec (S m) u).
  { unfold unit_vec, u. rewrite (rsum_ext (S m) _ (fun i => (/ s) ^ 2 * y i ^ 2)) by (intros; ring). rewrite rsum_scal. change (rsum (S m) (fun i => y i ^ 2)) with M. rewrite <- SS. field. lra. }
  destruct (householder m u UU) as (G & OG & GU).
  set (B := mm (S m) (trf G) (mm (S n) Y H)).
  assert (YB : forall i j, (i < S m)%nat -> (j < S n)%nat -> Y i j = mm (S m) G (mm (S n) B (trf H)) i j).
  { intros i j Hi Hj. rewrite (mm_ext (S m) G G _ (mm (S m) (trf G) Y)); [rewrite <- mm_assoc; rewrite (mm_ext (S m) _ delta Y Y) by (try reflexivity; intros; apply orth_r; assumption); symmetry; apply mm_delta_l; exact Hi|reflexivity|].
    intros k Hk. unfold B. rewrite mm_assoc. apply mm_ext; [reflexivity|]. intros q Hq. rewrite mm_assoc.
    rewrite (mm_ext (S n) Y Y _ delta); [apply mm_delta_r; exact Hj|reflexivity|]. intros; apply orth_r; assumption. }
  assert (YH0 : forall i, (i < S m)%nat -> mm (S n) Y H i 0%nat = s * G i 0%nat).
  { intros i Hi. rewrite GU by exact Hi. unfold u. replace (s * (/ s * y i)) with (y i) by (field; lra). apply rsum_ext. intros j Hj. rewrite HV by exact Hj. reflexivity. }
  assert (B0 : forall i, (i < S m)%nat -> B i 0%nat = s * delta i 0).
  { intros i Hi. unfold B. unfold mm at 1. rewrite (rsum_ext (S m) _ (fun k => s * (trf G i k * G k 0%nat))) by (intros k Hk; rewrite YH0 by exact Hk; ring).
    rewrite rsum_scal. f_equal. apply (orth_l (S m) G i 0 OG Hi). lia. }
  (* the first row: otherwise some unit vector would have a longer image *)
  assert (BR : forall j, (j < n)%nat -> B 0%nat (S j) = 0).
  { set (b := fun j => B 0%nat j). set (r := rsum (S n) (fun j => b j ^ 2)).
    assert (IM : image2 (S m) (S n) B b <= M * r).
    { assert (E : image2 (S m) (S n) B b = image2 (S m) (S n) Y (fun j => rsum (S n) (fun k => H j k * b k))).
      { unfold image2. rewrite <- (orth_length (S m) (trf G) (fun i => rsum (S n) (fun j => Y i j * rsum (S n) (fun k => H j k * b k))) (orth_tr _ _ OG)). apply rsum_ext. intros i Hi. f_equal.
        unfold B. transitivity (rsum (S m) (fun k => trf G i k * rsum (S n) (fun j => mm (S n) Y H k j * b j))).
        - unfold mm at 1. rewrite (rsum_ext (S n) _ (fun j => rsum (S m) (fun k => trf G i k * (mm (S n) Y H k j * b j)))) by (intros; rewrite <- rsum_scal_r; apply rsum_ext; intros; ring).
          rewrite rsum_swap. apply rsum_ext. intros k Hk. rewrite rsum_scal. reflexivity.
        - apply rsum_ext. intros k Hk. f_equal. unfold mm.
          rewrite (rsum_ext (S n) _ (fun j => rsum (S n) (fun q => Y k q * (H q j * b j)))) by (intros; rewrite <- rsum_scal_r; apply rsum_ext; intros; ring).
          rewrite rsum_swap. apply rsum_ext. intros q Hq. rewrite rsum_scal. reflexivity. }
      rewrite E. eapply Rle_trans; [apply SC|]. apply Req_le. f_equal. apply (orth_length (S n) H b OH). }
    assert (LO : r ^ 2 <= image2 (S m) (S n) B b).
    { assert (T : rsum (S n) (fun j => B 0%nat j * b j) = r) by (unfold r, b; apply rsum_ext; intros; ring). rewrite <- T. unfold image2.
      apply (rsum_ge_term (S m) (fun i => rsum (S n) (fun j => B i j * b j) ^ 2) 0); [intros; apply pow2_ge_0|lia]. }
    assert (RV : r = M + rsum n (fun j => b (S j) ^ 2)).
    { unfold r. rewrite rsum_shift. f_equal. unfold b. rewrite B0 by lia. rewrite delta_same. rewrite <- SS. ring. }
    assert (TP : 0 <= rsum n (fun j => b (S j) ^ 2)) by (apply rsum_nonneg; intros; apply pow2_ge_0).
    assert (TZ : rsum n (fun j => b (S j) ^ 2) = 0) by nra.
    intros j Hj. pose proof (rsum_nonneg_0 n _ (fun j _ => pow2_ge_0 (b (S j))) TZ j Hj) as Q. cbn beta in Q. apply Rsqr_0_uniq. rewrite Rsqr_pow2. exact Q. }
  destruct (IH n (fun i j => B (S i) (S j))) as (U' & sv' & V' & OU & OV & LV & PV & EV).
  exists (mm (S m) G (blk U')), (s :: sv'), (mm (S n) (blk V') (trf H)).
  split; [apply orth_mm; [exact OG|apply orth_blk; exact OU]|]. split; [apply orth_mm; [apply orth_blk; exact OV|apply orth_tr; exact OH]|].
  split; [cbn [length]; rewrite LV; reflexivity|]. split; [intros x [<-|I]; [lra|apply PV; exact I]|].
  intros i j Hi Hj.
  assert (BD : forall a b, (a < S m)%nat -> (b < S n)%nat -> B a b = rsum (length (s :: sv')) (fun k => blk U' a k * nth k (s :: sv') 0 * blk V' k b)).
  { intros [|a] [|b] Ha Hb; cbn [length]; rewrite rsum_shift; cbn [blk nth].
    - rewrite B0 by lia. rewrite (rsum_0 (length sv')) by (intros; ring). unfold delta. cbn. ring.
    - rewrite BR by lia. rewrite (rsum_0 (length sv')) by (intros; ring). ring.
    - rewrite B0 by lia. rewrite (rsum_0 (length sv')) by (intros; ring). unfold delta. cbn. ring.
    - rewrite (EV a b) by lia. ring. }
  rewrite YB by assumption. set (K := length (s :: sv')) in *. set (SG := fun k b => nth k (s :: sv') 0 * blk V' k b).
  transitivity (mm (S m) G (mm (S n) (mm K (blk U') SG) (trf H)) i j).
  { apply mm_ext; [reflexivity|]. intros a Ha. apply mm_ext; [|reflexivity]. intros b Hb. rewrite BD by assumption. unfold mm, SG. apply rsum_ext. intros. ring. }
  transitivity (mm (S m) G (mm K (blk U') (mm (S n) SG (trf H))) i j).
  { apply mm_ext; [reflexivity|]. intros a Ha. apply mm_assoc. }
  rewrite <- mm_assoc. unfold mm at 1. apply rsum_ext. intros k Hk. rewrite Rmult_assoc. f_equal. unfold mm, SG. rewrite <- rsum_scal. apply rsum_ext. intros. ring.
Qed.
Theorem svd_exists : forall Y : mat, exists U sv VH, is_svd Y U sv VH.
Proof.
  intros Y. destruct (svd_exists_f (nr Y) (nc Y) (ent Y)) as (U & sv & V & [A1 A2] & [B1 B2] & L & P & E).
  exists (Mat (nr Y) (nr Y) U), sv, (Mat (nc Y) (nc Y) V). unfold is_svd, orthogonal. cbn [nr nc ent]. repeat split; auto.
Qed.
