(** Complex numbers as pairs: a ring with an absolute value. *)
From Coq Require Import Lra Lia Ring.
From Verif Require Import Base BaseFacts M_utils M_sig M_sph0 M_sph M_parsa3 M_process3 S_zp.
Open Scope R_scope.

Definition copp (a : C2) : C2 := (- fst a, - snd a).
Definition csub (a b : C2) : C2 := (fst a - fst b, snd a - snd b).
Definition cre (x : R) : C2 := (x, 0).
Lemma ceq (a b : C2) : fst a = fst b -> snd a = snd b -> a = b.
Proof. destruct a, b. cbn. intros -> ->. reflexivity. Qed.
Lemma cring : ring_theory (cre 0) (cre 1) cadd cmul csub copp (@eq C2).
Proof. constructor; intros; apply ceq; unfold cadd, cmul, csub, copp, cre; cbn; ring. Qed.
Add Ring Cring : cring.
Lemma cscal_mul s a : cscal s a = cmul (cre s) a.
Proof. apply ceq; unfold cscal, cmul, cre; cbn; ring. Qed.
Lemma cre_add x y : cre (x + y) = cadd (cre x) (cre y).
Proof. apply ceq; unfold cadd, cre; cbn; ring. Qed.
Lemma cre_mul x y : cre (x * y) = cmul (cre x) (cre y).
Proof. apply ceq; unfold cmul, cre; cbn; ring. Qed.

Lemma csum_S n f : csum (S n) f = cadd (csum n f) (f n).
Proof. reflexivity. Qed.
Lemma csum_O f : csum 0 f = cre 0.
Proof. reflexivity. Qed.
Lemma csum_ext' n f g : (forall i, (i < n)%nat -> f i = g i) -> csum n f = csum n g.
Proof. intros H. unfold csum. f_equal; apply rsum_ext; intros i I; rewrite H by exact I; reflexivity. Qed.
Lemma csum_shift n f : csum (S n) f = cadd (f 0%nat) (csum n (fun k => f (S k))).
Proof. induction n as [|n IH]; [rewrite csum_S, !csum_O; ring|]. rewrite csum_S, IH, (csum_S n). ring. Qed.
Lemma csum_add n f g : csum n (fun k => cadd (f k) (g k)) = cadd (csum n f) (csum n g).
Proof. induction n as [|n IH]; [rewrite !csum_O; ring|]. rewrite !csum_S, IH. ring. Qed.
Lemma csum_mul n c f : csum n (fun k => cmul c (f k)) = cmul c (csum n f).
Proof. induction n as [|n IH]; [rewrite !csum_O; ring|]. rewrite !csum_S, IH. ring. Qed.
Lemma csum_zero n f : (forall i, (i < n)%nat -> f i = cre 0) -> csum n f = cre 0.
Proof. induction n as [|n IH]; intros H; [reflexivity|]. rewrite csum_S, IH, H by (try intros; try apply H; lia). ring. Qed.
Lemma csum_app n m f : csum (n + m) f = cadd (csum n f) (csum m (fun k => f (n + k)%nat)).
Proof. induction m as [|m IH]; [rewrite Nat.add_0_r, csum_O; ring|]. rewrite <- plus_n_Sm, !csum_S, IH. ring. Qed.
Lemma csum_swap n m f : csum n (fun i => csum m (fun j => f i j)) = csum m (fun j => csum n (fun i => f i j)).
Proof. induction n as [|n IH]; [rewrite csum_O, csum_zero; reflexivity|]. rewrite csum_S, IH. rewrite <- csum_add. apply csum_ext'. intros. rewrite csum_S. reflexivity. Qed.
Lemma csum_cre n f : csum n (fun k => cre (f k)) = cre (rsum n f).
Proof. apply ceq; unfold csum, cre; cbn [fst snd]; [reflexivity|apply rsum_0; reflexivity]. Qed.
Lemma csum_rev n f : csum n f = csum n (fun k => f (n - 1 - k)%nat).
Proof. apply ceq; unfold csum; cbn [fst snd]; apply (rsum_rev n (fun k => _ (f k))). Qed.

Lemma cabs_sq z : cabs z * cabs z = fst z ^ 2 + snd z ^ 2.
Proof. unfold cabs. apply sqrt_sqrt. nra. Qed.
Lemma cabs_ge0 z : 0 <= cabs z.
Proof. apply sqrt_pos. Qed.
Lemma sq_eq_pos x y : 0 <= x -> 0 <= y -> x * x = y * y -> x = y.
Proof. intros X Y E. destruct (Req_dec x y) as [H|H]; [exact H|]. exfalso. destruct (Rtotal_order x y) as [L|[L|L]]; [|lra|]; nra. Qed.
Lemma cabs_mul a b : cabs (cmul a b) = cabs a * cabs b.
Proof. apply sq_eq_pos; [apply cabs_ge0|apply Rmult_le_pos; apply cabs_ge0|]. replace (cabs a * cabs b * (cabs a * cabs b)) with ((cabs a * cabs a) * (cabs b * cabs b)) by ring. rewrite !cabs_sq. unfold cmul. cbn [fst snd]. ring. Qed.
Lemma cabs_cre x : cabs (cre x) = Rabs x.
Proof. apply sq_eq_pos; [apply cabs_ge0|apply Rabs_pos|]. rewrite cabs_sq. unfold cre. cbn [fst snd]. rewrite <- Rabs_mult, Rabs_right by (apply Rle_ge, Rle_0_sqr). ring. Qed.
Lemma cabs_tri a b : cabs (cadd a b) <= cabs a + cabs b.
Proof.
  apply Rsqr_incr_0_var; [|pose proof (cabs_ge0 a); pose proof (cabs_ge0 b); lra]. unfold Rsqr. replace ((cabs a + cabs b) * (cabs a + cabs b)) with (cabs a * cabs a + cabs b * cabs b + 2 * (cabs a * cabs b)) by ring. rewrite !cabs_sq. unfold cadd. cbn [fst snd].
  assert (H : fst a * fst b + snd a * snd b <= cabs a * cabs b); [|nra]. rewrite <- cabs_mul. apply Rle_trans with (Rabs (fst a * fst b + snd a * snd b)); [apply Rle_abs|]. apply Rsqr_incr_0_var; [|apply cabs_ge0]. unfold Rsqr. rewrite cabs_sq, <- Rabs_mult, Rabs_right by (apply Rle_ge, Rle_0_sqr). unfold cmul. cbn [fst snd].
  pose proof (pow2_ge_0 (fst a * snd b - snd a * fst b)). nra.
Qed.
Lemma cabs_csum n f : cabs (csum n f) <= rsum n (fun k => cabs (f k)).
Proof. induction n as [|n IH]; [rewrite csum_O, cabs_cre, Rabs_R0; cbn; lra|]. rewrite csum_S. cbn [rsum]. pose proof (cabs_tri (csum n f) (f n)). lra. Qed.
Lemma cabs_pow z n : cabs (cpow z n) = cabs z ^ n.
Proof. induction n as [|n IH]; cbn [cpow pow]; [change (1, 0) with (cre 1); rewrite cabs_cre; apply Rabs_R1|]. rewrite cabs_mul, IH. reflexivity. Qed.
Lemma cabs_0 z : cabs z = 0 -> z = cre 0.
Proof. intros H. pose proof (cabs_sq z) as Q. rewrite H in Q. apply ceq; unfold cre; cbn [fst snd]; nra. Qed.
Lemma cpow_add z n m : cpow z (n + m) = cmul (cpow z n) (cpow z m).
Proof. induction n as [|n IH]; cbn [cpow Nat.add]; [change (1, 0) with (cre 1); ring|]. rewrite IH. ring. Qed.
Lemma cpow_S z n : cpow z (S n) = cmul z (cpow z n).
Proof. reflexivity. Qed.
Lemma cpow_mul z w n : cpow (cmul z w) n = cmul (cpow z n) (cpow w n).
Proof. induction n as [|n IH]; cbn [cpow]; [change (1, 0) with (cre 1); ring|]. rewrite IH. ring. Qed.
Lemma cpow_one n : cpow (cre 1) n = cre 1.
Proof. induction n as [|n IH]; [reflexivity|]. rewrite cpow_S, IH. ring. Qed.
Lemma cpow_cre x n : cpow (cre x) n = cre (x ^ n).
Proof. induction n as [|n IH]; [reflexivity|]. rewrite cpow_S, IH, <- cre_mul. reflexivity. Qed.
Definition cinv (z : C2) : C2 := (fst z / (fst z ^ 2 + snd z ^ 2), - snd z / (fst z ^ 2 + snd z ^ 2)).
Lemma cinv_l z : z <> cre 0 -> cmul z (cinv z) = cre 1.
Proof. intros H. assert (N : fst z ^ 2 + snd z ^ 2 <> 0) by (intros E; apply H; apply ceq; unfold cre; cbn [fst snd]; nra). apply ceq; unfold cmul, cinv, cre; cbn [fst snd]; field; exact N. Qed.
Lemma cmul_integral a b : cmul a b = cre 0 -> a = cre 0 \/ b = cre 0.
Proof. intros H. apply (f_equal cabs) in H. rewrite cabs_mul, cabs_cre, Rabs_R0 in H. apply Rmult_integral in H. destruct H as [H|H]; apply cabs_0 in H; auto. Qed.
