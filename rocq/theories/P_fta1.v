(** Every polynomial has its roots. *)
From Coq Require Import Lra Lia Ring ClassicalEpsilon.
From Verif Require Import Base BaseFacts M_utils M_sig M_sph0 M_sph M_parsa3 M_process3 S_zp P_cplx P_svd1.
Open Scope R_scope.
Add Ring C2ring_fta : cring.

(** coefficients, lowest order first *)
Fixpoint ceval (l : list C2) (z : C2) : C2 := match l with [] => cre 0 | c :: t => cadd c (cmul z (ceval t z)) end.
Fixpoint padd (a b : list C2) : list C2 :=
  match a, b with x :: a', y :: b' => cadd x y :: padd a' b' | _, _ => a end.
Fixpoint pshift (z : C2) (l : list C2) : list C2 :=
  match l with [] => [] | c :: t => padd (c :: pshift z t) (map (cmul z) (pshift z t)) end.
Lemma padd_length a : forall b, length (padd a b) = length a.
Proof. induction a as [|x a IH]; intros [|y b]; cbn; auto. Qed.
Lemma padd_eval a : forall b z, (length b <= length a)%nat -> ceval (padd a b) z = cadd (ceval a z) (ceval b z).
Proof. induction a as [|x a IH]; intros [|y b] z L; cbn [padd ceval length] in *; try lia; [ring|ring|]. rewrite IH by lia. ring. Qed.
Lemma scale_eval c l z : ceval (map (cmul c) l) z = cmul c (ceval l z).
Proof. induction l as [|x l IH]; cbn [map ceval]; [ring|]. rewrite IH. ring. Qed.
Lemma pshift_length z l : length (pshift z l) = length l.
Proof. induction l as [|c t IH]; [reflexivity|]. cbn [pshift]. rewrite padd_length. cbn [length]. rewrite IH. reflexivity. Qed.
Lemma pshift_eval z l w : ceval (pshift z l) w = ceval l (cadd z w).
Proof.
  induction l as [|c t IH]; [reflexivity|]. cbn [pshift]. rewrite padd_eval by (rewrite map_length; cbn [length]; lia).
  rewrite scale_eval. cbn [ceval]. rewrite IH. ring.
Qed.
Lemma padd_last a : forall b d, (length b < length a)%nat -> last (padd a b) d = last a d.
Proof.
  induction a as [|x a IH]; intros [|y b] d L; cbn [length] in *; try lia; [reflexivity|]. cbn [padd].
  destruct a as [|x' a]; cbn [length] in *; [lia|]. specialize (IH b d ltac:(lia)). destruct b as [|y' b]; cbn [padd] in *; cbn [last] in *; exact IH.
Qed.
Lemma pshift_last z l d : last (pshift z l) d = last l d.
Proof.
  induction l as [|c t IH]; [reflexivity|]. cbn [pshift]. rewrite padd_last by (rewrite map_length; cbn [length]; lia).
  destruct t as [|c' t]; [reflexivity|]. pose proof (pshift_length z (c' :: t)) as L. destruct (pshift z (c' :: t)) as [|e s]; [discriminate L|]. exact IH.
Qed.

Lemma cabs_diff a b : cabs a - cabs b <= cabs (cadd a b).
Proof.
  pose proof (cabs_tri (cadd a b) (cmul (cre (-1)) b)) as T. replace (cadd (cadd a b) (cmul (cre (-1)) b)) with a in T by (apply ceq; unfold cadd, cmul, cre; cbn [fst snd]; ring).
  rewrite cabs_mul, cabs_cre in T. replace (Rabs (-1)) with 1 in T by (rewrite Rabs_left; lra). lra.
Qed.
Lemma cabs_pos z : z <> cre 0 -> 0 < cabs z.
Proof. intros N. destruct (Rle_lt_or_eq_dec 0 (cabs z) (cabs_ge0 z)) as [L|E]; [exact L|]. exfalso. apply N, cabs_0. symmetry. exact E. Qed.
(** growth *)
Lemma growth l : (2 <= length l)%nat -> last l (cre 0) <> cre 0 -> forall M, exists r, 0 < r /\ forall z, r <= cabs z -> M <= cabs (ceval l z).
Proof.
  induction l as [|c t IH]; intros L N M; [cbn in L; lia|]. destruct t as [|c' t]; [cbn in L; lia|].
  destruct t as [|c2 t].
  - cbn [last] in N. pose proof (cabs_pos c' N) as P. exists ((Rabs M + cabs c) / cabs c' + 1). split.
    + pose proof (Rabs_pos M). pose proof (cabs_ge0 c). assert (0 <= (Rabs M + cabs c) / cabs c') by (apply Rmult_le_pos; [lra|apply Rlt_le, Rinv_0_lt_compat; exact P]). lra.
    + intros z Hz. cbn [ceval]. replace (cadd c (cmul z (cadd c' (cmul z (cre 0))))) with (cadd (cmul z c') c) by ring.
      eapply Rle_trans; [|apply cabs_diff]. rewrite cabs_mul. assert (Q : (Rabs M + cabs c) / cabs c' * cabs c' <= cabs z * cabs c') by (apply Rmult_le_compat_r; lra).
      unfold Rdiv in Q. rewrite Rmult_assoc, Rinv_l, Rmult_1_r in Q by lra. pose proof (Rle_abs M). lra.
  - destruct (IH ltac:(cbn; lia) N 1) as (r & R0 & H). exists (Rmax r (Rabs M + cabs c)). split; [eapply Rlt_le_trans; [exact R0|apply Rmax_l]|].
    intros z Hz. pose proof (Rmax_l r (Rabs M + cabs c)). pose proof (Rmax_r r (Rabs M + cabs c)). specialize (H z ltac:(lra)).
    change (ceval (c :: c' :: c2 :: t) z) with (cadd c (cmul z (ceval (c' :: c2 :: t) z))). replace (cadd c (cmul z (ceval (c' :: c2 :: t) z))) with (cadd (cmul z (ceval (c' :: c2 :: t) z)) c) by ring.
    eapply Rle_trans; [|apply cabs_diff]. rewrite cabs_mul. pose proof (cabs_ge0 z). pose proof (Rle_abs M). nra.
Qed.
(** continuity *)
Lemma eval_cv l (u : nat -> C2) z : Un_cv (fun k => fst (u k)) (fst z) -> Un_cv (fun k => snd (u k)) (snd z) ->
  Un_cv (fun k => fst (ceval l (u k))) (fst (ceval l z)) /\ Un_cv (fun k => snd (ceval l (u k))) (snd (ceval l z)).
Proof.
  intros C1 C2'. induction l as [|c t [I1 I2]]; cbn [ceval].
  - split; apply cv_const.
  - unfold cadd, cmul. cbn [fst snd]. split.
    + apply (CV_plus (fun _ => fst c)); [apply cv_const|]. apply (CV_minus (fun k => fst (u k) * fst (ceval t (u k)))); apply CV_mult; assumption.
    + apply (CV_plus (fun _ => snd c)); [apply cv_const|]. apply (CV_plus (fun k => fst (u k) * snd (ceval t (u k)))); apply CV_mult; assumption.
Qed.
Definition n2 (z : C2) : R := fst z ^ 2 + snd z ^ 2.
Lemma n2_abs z : n2 z = cabs z * cabs z.
Proof. symmetry. apply cabs_sq. Qed.
Lemma n2_cv l (u : nat -> C2) z : Un_cv (fun k => fst (u k)) (fst z) -> Un_cv (fun k => snd (u k)) (snd z) -> Un_cv (fun k => n2 (ceval l (u k))) (n2 (ceval l z)).
Proof. intros A B. destruct (eval_cv l u z A B) as [X Y]. unfold n2. apply CV_plus; apply cv_pow2; assumption. Qed.
Lemma comp_le z : Rabs (fst z) <= cabs z /\ Rabs (snd z) <= cabs z.
Proof.
  pose proof (cabs_sq z) as S. pose proof (cabs_ge0 z) as G. split; apply Rsqr_incr_0_var; try exact G; unfold Rsqr; rewrite S, <- Rabs_mult, Rabs_right by (apply Rle_ge, Rle_0_sqr); pose proof (pow2_ge_0 (fst z)); pose proof (pow2_ge_0 (snd z)); nra.
Qed.
(** the least modulus is attained *)
Lemma least l : (2 <= length l)%nat -> last l (cre 0) <> cre 0 -> exists z, forall w, n2 (ceval l z) <= n2 (ceval l w).
Proof.
  intros L N. set (E := fun x => exists z, x = - n2 (ceval l z)).
  assert (BD : bound E).
  { exists 0. intros x (z & ->). unfold n2. pose proof (pow2_ge_0 (fst (ceval l z))). pose proof (pow2_ge_0 (snd (ceval l z))). lra. }
  destruct (completeness E BD) as [M [UB LUB]]; [exists (- n2 (ceval l (cre 0))), (cre 0); reflexivity|].
  assert (SQ : forall k, exists z, M - / (INR k + 1) < - n2 (ceval l z)).
  { intros k. apply Classical_Prop.NNPP. intros C. assert (P : 0 < / (INR k + 1)) by (apply Rinv_0_lt_compat; pose proof (pos_INR k); lra).
    assert (Q : M <= M - / (INR k + 1)); [|lra]. apply LUB. intros x (z & ->). apply Rnot_lt_le. intros Q. apply C. exists z. exact Q. }
  set (u := fun k => proj1_sig (constructive_indefinite_description _ (SQ k))).
  assert (U : forall k, M - / (INR k + 1) < - n2 (ceval l (u k))) by (intros k; exact (proj2_sig (constructive_indefinite_description _ (SQ k)))).
  destruct (growth l L N (Rabs M + 2)) as (r & R0 & G).
  assert (B : forall k, cabs (u k) <= r).
  { intros k. apply Rnot_lt_le. intros Q. specialize (G (u k) ltac:(lra)). specialize (U k). rewrite n2_abs in U.
    assert (P : / (INR k + 1) <= 1) by (replace 1 with (/ 1) by (apply Rinv_1); apply Rinv_le_contravar; [lra|rewrite Rinv_1; pose proof (pos_INR k); lra]).
    pose proof (Rle_abs (- M)) as A. rewrite Rabs_Ropp in A. pose proof (Rabs_pos M). nra. }
  destruct (bw 2 (fun k i => if Nat.eqb i 0 then fst (u k) else snd (u k)) r) as (phi & lim & I & C).
  { intros k i Hi. destruct (comp_le (u k)) as [C1 C2']. specialize (B k). destruct (Nat.eqb i 0); lra. }
  assert (CI : Un_cv (fun k => n2 (ceval l (u (phi k)))) (n2 (ceval l (lim 0%nat, lim 1%nat)))).
  { apply n2_cv; [exact (C 0%nat ltac:(lia))|exact (C 1%nat ltac:(lia))]. }
  exists (lim 0%nat, lim 1%nat). intros w. set (v := n2 (ceval l (lim 0%nat, lim 1%nat))) in *.
  assert (W : - n2 (ceval l w) <= M) by (apply UB; exists w; reflexivity).
  apply Rnot_lt_le. intros Q. destruct (CI ((v + M) / 2)) as [N1 H1]; [lra|].
  destruct (archimed_cor1 ((v + M) / 2)) as (N2 & H2 & P2); [lra|].
  set (k := Nat.max N1 N2). specialize (H1 k ltac:(lia)). unfold R_dist in H1. apply Rabs_def2 in H1. pose proof (U (phi k)) as Q2.
  pose proof (increasing_ge phi I k) as GE. assert (IR : / (INR (phi k) + 1) <= / INR N2).
  { apply Rinv_le_contravar; [apply lt_0_INR; exact P2|]. assert (INR N2 <= INR (phi k)) by (apply le_INR; lia). lra. }
  lra.
Qed.
