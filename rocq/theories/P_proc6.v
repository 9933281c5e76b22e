(** Proofs about process.py: the ITD estimator on pure delays. *)
From Verif Require Import Base BaseFacts M_utils M_sig P_sig M_process S_process P_proc1 P_proc4.
Open Scope R_scope.

Section Auto.
Variables (f : Z -> R) (n : nat).
Hypothesis supp : forall z, (z < 0 \/ Z.of_nat n <= z)%Z -> f z = 0.

Lemma window_sum_le (g : Z -> R) d :
  (forall z, 0 <= g z) -> (forall z, (z < 0 \/ Z.of_nat n <= z)%Z -> g z = 0) ->
  rsum n (fun i => g (Z.of_nat i + d)%Z) <= rsum n (fun i => g (Z.of_nat i)).
Proof.
  intros G0 Gs. destruct (Z_le_gt_dec 0 d) as [Hd|Hd].
  - assert (E : rsum (Z.to_nat d + n) (fun i => g (Z.of_nat i)) = rsum n (fun i => g (Z.of_nat i))).
    { apply rsum_extend; [lia|]. intros i Hi. apply Gs. lia. }
    rewrite <- E, rsum_app.
    assert (0 <= rsum (Z.to_nat d) (fun i => g (Z.of_nat i))) by (apply rsum_nonneg; auto).
    rewrite (rsum_ext n (fun i => g (Z.of_nat i + d)%Z) (fun i => g (Z.of_nat (Z.to_nat d + i)))).
    + lra.
    + intros i _. f_equal. lia.
  - assert (E : rsum (Z.to_nat (- d) + n) (fun i => g (Z.of_nat i + d)%Z) = rsum n (fun i => g (Z.of_nat i))).
    { rewrite rsum_app, rsum_0, Rplus_0_l.
      - apply rsum_ext. intros i _. f_equal. lia.
      - intros i Hi. apply Gs. lia. }
    rewrite <- E. rewrite Nat.add_comm, rsum_app.
    assert (0 <= rsum (Z.to_nat (- d)) (fun i => g (Z.of_nat (n + i) + d)%Z)) by (apply rsum_nonneg; auto).
    lra.
Qed.

Lemma auto_lt d : d <> 0%Z -> (exists z, f z <> 0) ->
  rsum n (fun i => f (Z.of_nat i) * f (Z.of_nat i + d)%Z) < rsum n (fun i => f (Z.of_nat i) ^ 2).
Proof.
  intros Hd [z Hz].
  pose proof (window_sum_le (fun z => f z ^ 2) d) as W. cbn beta in W.
  assert (W1 : rsum n (fun i => f (Z.of_nat i + d)%Z ^ 2) <= rsum n (fun i => f (Z.of_nat i) ^ 2)).
  { apply W; [intros; apply pow2_ge_0|]. intros y Hy. rewrite supp by auto. ring. }
  assert (D : rsum n (fun i => (f (Z.of_nat i + d)%Z - f (Z.of_nat i)) ^ 2) =
    rsum n (fun i => f (Z.of_nat i + d)%Z ^ 2) + rsum n (fun i => f (Z.of_nat i) ^ 2)
    - 2 * rsum n (fun i => f (Z.of_nat i) * f (Z.of_nat i + d)%Z)).
  { rewrite <- rsum_scal, <- rsum_plus, <- rsum_minus. apply rsum_ext. intros; ring. }
  assert (P : 0 <= rsum n (fun i => (f (Z.of_nat i + d)%Z - f (Z.of_nat i)) ^ 2)).
  { apply rsum_nonneg. intros. apply pow2_ge_0. }
  destruct (Rle_lt_or_eq_dec _ _ P) as [L|E]; [lra|]. exfalso.
  assert (Q : forall i, (i < n)%nat -> f (Z.of_nat i + d)%Z = f (Z.of_nat i)).
  { intros i Hi. symmetry in E. pose proof (rsum_nonneg_0 n _ (fun i _ => pow2_ge_0 _) E i Hi) as T.
    cbn beta in T. apply Rsqr_0_uniq in T || (assert (f (Z.of_nat i + d)%Z - f (Z.of_nat i) = 0) by nra; lra). }
  assert (Q2 : forall y, (0 <= y < Z.of_nat n)%Z -> f (y + d)%Z = f y).
  { intros y Hy. specialize (Q (Z.to_nat y) ltac:(lia)). rewrite Z2Nat.id in Q by lia. auto. }
  apply Hz.
  assert (A : forall k y, (Z.abs (if (0 <? d)%Z then Z.of_nat n - y else y + 1) <= Z.of_nat k)%Z -> f y = 0).
  { induction k as [|k IH]; intros y Hy.
    - apply supp. destruct (Z.ltb_spec 0 d); lia.
    - destruct (Z_lt_ge_dec y 0) as [H|H]; [apply supp; auto|].
      destruct (Z_lt_ge_dec y (Z.of_nat n)) as [H'|H']; [|apply supp; lia].
      rewrite <- Q2 by lia. destruct (Z_lt_ge_dec (y + d) 0) as [H2|H2]; [apply supp; auto|].
      destruct (Z_lt_ge_dec (y + d) (Z.of_nat n)) as [H3|H3]; [|apply supp; lia].
      apply IH. destruct (Z.ltb_spec 0 d); lia. }
  apply (A (Z.to_nat (Z.abs (if (0 <? d)%Z then Z.of_nat n - z else z + 1)))). rewrite Z2Nat.id; lia.
Qed.
End Auto.

(** a list read at an integer position, zero outside *)
Definition at_z (l : list R) (z : Z) : R := if (z <? 0)%Z then 0 else nth (Z.to_nat z) l 0.

Lemma at_z_nat l i : at_z l (Z.of_nat i) = nth i l 0.
Proof. unfold at_z. destruct (Z.ltb_spec (Z.of_nat i) 0); [lia|]. rewrite Nat2Z.id. auto. Qed.

Lemma corr_full_z a v k : length v <> 0%nat ->
  corr_full a v k = rsum (length v) (fun i => at_z v (Z.of_nat i) *
     at_z a (Z.of_nat i + (Z.of_nat k - (Z.of_nat (length v) - 1)))%Z).
Proof.
  intros Hv. unfold corr_full. apply rsum_ext. intros i Hi.
  rewrite at_z_nat. unfold at_z.
  destruct (Nat.leb_spec (length v - 1) (i + k)) as [L|L].
  - destruct (Z.ltb_spec (Z.of_nat i + (Z.of_nat k - (Z.of_nat (length v) - 1))) 0); [lia|].
    rewrite Rmult_comm. f_equal. f_equal. lia.
  - destruct (Z.ltb_spec (Z.of_nat i + (Z.of_nat k - (Z.of_nat (length v) - 1))) 0); [ring|lia].
Qed.

(** [x] scaled by [g], arriving at sample [p] of a response of length [n] *)
Definition arrive (n p : nat) (g : R) (x : list R) : list R :=
  repeat 0 p ++ map (Rmult g) x ++ repeat 0 (n - p - length x).

Lemma length_arrive n p g x : (p + length x <= n)%nat -> length (arrive n p g x) = n.
Proof. intros. unfold arrive. rewrite !app_length, !repeat_length, map_length. lia. Qed.

Lemma arrive_sq n p g x z : (p + length x <= n)%nat ->
  at_z (map (fun y => y ^ 2) (arrive n p g x)) z = g ^ 2 * at_z x (z - Z.of_nat p) ^ 2.
Proof.
  intros H. unfold at_z. destruct (Z.ltb_spec z 0) as [L|L].
  - destruct (Z.ltb_spec (z - Z.of_nat p) 0); [ring|lia].
  - assert (E : nth (Z.to_nat z) (map (fun y => y ^ 2) (arrive n p g x)) 0 = nth (Z.to_nat z) (arrive n p g x) 0 ^ 2).
    { rewrite <- (map_nth (fun y => y ^ 2)). f_equal. ring. }
    rewrite E. unfold arrive. destruct (Z.ltb_spec (z - Z.of_nat p) 0) as [L2|L2].
    + rewrite app_nth1 by (rewrite repeat_length; lia). rewrite nth_repeat_in by lia. ring.
    + rewrite app_nth2 by (rewrite repeat_length; lia). rewrite repeat_length.
      replace (Z.to_nat z - p)%nat with (Z.to_nat (z - Z.of_nat p)) by lia.
      set (k := Z.to_nat (z - Z.of_nat p)). destruct (Nat.lt_ge_cases k (length x)) as [H1|H1].
      * rewrite app_nth1 by (rewrite map_length; auto). rewrite (nth_map_in _ _ k 0 0) by auto. ring.
      * rewrite app_nth2 by (rewrite map_length; auto). rewrite map_length.
        rewrite (nth_overflow x) by auto.
        assert (R0 : nth (k - length x) (repeat 0 (n - p - length x)) 0 = 0).
        { destruct (Nat.lt_ge_cases (k - length x) (n - p - length x)) as [H2|H2].
          - apply nth_repeat_in; auto.
          - apply nth_overflow. rewrite repeat_length. auto. }
        rewrite R0. ring.
Qed.

Lemma itd_exact n p q gl gr x fs :
  (p + length x <= n)%nat -> (q + length x <= n)%nat -> gl <> 0 -> gr <> 0 ->
  (exists y, In y x /\ y <> 0) ->
  (Z.of_nat q - Z.of_nat p <= Z.of_nat (n / 2))%Z -> (Z.of_nat p - Z.of_nat q < Z.of_nat n - Z.of_nat (n / 2))%Z ->
  itd1 (arrive n p gl x) (arrive n q gr x) fs = Ok ((INR q - INR p) / fs).
Proof.
  intros Hp Hq Hgl Hgr (y & Hy & Y0) B1 B2. unfold itd1.
  set (sq := map (fun t => t ^ 2)). set (a := sq (arrive n p gl x)). set (v := sq (arrive n q gr x)).
  assert (La : length a = n) by (unfold a, sq; rewrite map_length; apply length_arrive; auto).
  assert (Lv : length v = n) by (unfold v, sq; rewrite map_length; apply length_arrive; auto).
  assert (Lx : (0 < length x)%nat) by (destruct x; [destruct Hy|cbn; lia]).
  set (f := fun z => at_z x (z - Z.of_nat q) ^ 2).
  assert (F : forall z, (z < 0 \/ Z.of_nat n <= z)%Z -> f z = 0).
  { intros z Hz. unfold f, at_z. destruct (Z.ltb_spec (z - Z.of_nat q) 0); [ring|].
    rewrite nth_overflow by lia. ring. }
  assert (F0 : exists z, f z <> 0).
  { destruct (In_nth x y 0 Hy) as (i & Hi & E). exists (Z.of_nat i + Z.of_nat q)%Z. unfold f.
    replace (Z.of_nat i + Z.of_nat q - Z.of_nat q)%Z with (Z.of_nat i) by lia. rewrite at_z_nat, E.
    apply pow_nonzero. auto. }
  assert (HN : (n - 1 - (n - 1) / 2 = n / 2)%nat).
  { pose proof (Nat.div_mod n 2 ltac:(lia)). pose proof (Nat.div_mod (n - 1) 2 ltac:(lia)).
    pose proof (Nat.mod_upper_bound n 2 ltac:(lia)). pose proof (Nat.mod_upper_bound (n - 1) 2 ltac:(lia)). lia. }
  pose proof (Nat.div_le_upper_bound (n - 1) 2 (n - 1) ltac:(lia) ltac:(lia)) as HN2.
  assert (C : forall j, (j < n)%nat -> nth j (corr_same a v) 0 =
     (gl ^ 2 * gr ^ 2) * rsum n (fun i => f (Z.of_nat i) *
        f (Z.of_nat i + (Z.of_nat j - Z.of_nat (n / 2) + Z.of_nat q - Z.of_nat p))%Z)).
  { intros j Hj. unfold corr_same. rewrite nth_map_seq by lia. rewrite corr_full_z by lia.
    rewrite Lv, <- rsum_scal. apply rsum_ext. intros i Hi. unfold a, v, sq. rewrite !arrive_sq by auto.
    cbn [plus]. unfold f.
    replace (Z.of_nat i + (Z.of_nat (j + (n - 1) / 2) - (Z.of_nat n - 1)) - Z.of_nat p)%Z
      with (Z.of_nat i + (Z.of_nat j - Z.of_nat (n / 2) + Z.of_nat q - Z.of_nat p) - Z.of_nat q)%Z by lia.
    ring. }
  set (j0 := Z.to_nat (Z.of_nat (n / 2) + Z.of_nat p - Z.of_nat q)).
  assert (J0 : Z.of_nat j0 = (Z.of_nat (n / 2) + Z.of_nat p - Z.of_nat q)%Z) by (unfold j0; lia).
  assert (Lc : length (corr_same a v) = n) by (unfold corr_same; rewrite map_length, seq_length; auto).
  destruct (argmax_spec (corr_same a v)) as (k & E & Hk & Mx & _).
  { intros E. rewrite E in Lc. cbn in Lc. lia. }
  rewrite E. cbn [bind]. rewrite Lc in Hk.
  assert (K : k = j0).
  { destruct (Nat.eq_dec k j0) as [H|H]; auto. exfalso.
    specialize (Mx j0 ltac:(lia)). rewrite !C in Mx by lia.
    assert (G : 0 < gl ^ 2 * gr ^ 2).
    { apply Rmult_lt_0_compat; rewrite <- Rsqr_pow2; apply Rsqr_pos_lt; auto. }
    pose proof (auto_lt f n F (Z.of_nat k - Z.of_nat (n / 2) + Z.of_nat q - Z.of_nat p)%Z ltac:(lia) F0) as AL.
    rewrite (rsum_ext n (fun i => f (Z.of_nat i) * f (Z.of_nat i + (Z.of_nat j0 - Z.of_nat (n / 2) + Z.of_nat q - Z.of_nat p))%Z)
              (fun i => f (Z.of_nat i) ^ 2)) in Mx.
    - apply Rmult_le_reg_l in Mx; auto. lra.
    - intros i _. replace (Z.of_nat i + (Z.of_nat j0 - Z.of_nat (n / 2) + Z.of_nat q - Z.of_nat p))%Z with (Z.of_nat i) by lia. ring. }
  rewrite length_arrive by auto. f_equal. rewrite K. rewrite (INR_IZR_INZ j0), J0, minus_IZR, plus_IZR, <- !INR_IZR_INZ.
  unfold Rdiv. f_equal. lra.
Qed.
