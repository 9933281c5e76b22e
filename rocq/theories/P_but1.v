(** Butterworth band-pass filters of order 2: poles, gain and coefficients. *)
From Coq Require Import Lra Lia Ring.
From Verif Require Import Base BaseFacts M_utils M_sig M_sph0 M_sph M_parsa3 M_process3 S_process3 M_zp S_zp P_lfilter P_cplx P_zp1 S_process4 M_process M_process4 P_ff3 P_ff5.
Open Scope R_scope.

Definition nrm (z : C2) : R := fst z ^ 2 + snd z ^ 2.
Lemma nrm_mul x y : nrm (cmul x y) = nrm x * nrm y.
Proof. unfold nrm, cmul. cbn [fst snd]. ring. Qed.
Lemma nrm_abs z : nrm z = cabs z ^ 2.
Proof. unfold nrm. rewrite <- cabs_sq. ring. Qed.
Lemma sq_pos x : x <> 0 -> 0 < x ^ 2.
Proof. intros H. replace (x ^ 2) with (Rsqr x) by (unfold Rsqr; ring). apply Rsqr_pos_lt. exact H. Qed.
Lemma nrm_pos z : fst z <> 0 \/ snd z <> 0 -> 0 < nrm z.
Proof. unfold nrm. intros [H|H]; [pose proof (sq_pos _ H); pose proof (pow2_ge_0 (snd z))|pose proof (sq_pos _ H); pose proof (pow2_ge_0 (fst z))]; lra. Qed.

(** the principal root *)
Lemma abs_ge z : - cabs z <= fst z <= cabs z.
Proof. pose proof (cabs_ge0 z) as H. pose proof (cabs_sq z) as Q. pose proof (pow2_ge_0 (snd z)). split; nra. Qed.
Lemma csqrt_parts z : let r := c_sqrt z in fst r * fst r - snd r * snd r = fst z /\ 2 * (fst r * snd r) = snd z.
Proof.
  cbv zeta. unfold c_sqrt. cbn [fst snd]. pose proof (abs_ge z) as [L U]. set (p := (cabs z + fst z) / 2). set (m := (cabs z - fst z) / 2). assert (P : 0 <= p) by (unfold p; lra). assert (M : 0 <= m) by (unfold m; lra). assert (E : p * m = (snd z / 2) ^ 2) by (unfold p, m; pose proof (cabs_sq z); nra).
  assert (S : sqrt p * sqrt m = Rabs (snd z / 2)). { rewrite <- sqrt_mult, E by assumption. replace ((snd z / 2) ^ 2) with (Rsqr (snd z / 2)) by (unfold Rsqr; ring). apply sqrt_Rsqr_abs. }
  pose proof (sqrt_sqrt p P) as SP. pose proof (sqrt_sqrt m M) as SM. unfold Rltb. destruct (Rlt_dec (snd z) 0) as [N|N].
  - rewrite Rabs_left in S by lra. split; [|nra]. replace (sqrt p * sqrt p - -1 * sqrt m * (-1 * sqrt m)) with (sqrt p * sqrt p - sqrt m * sqrt m) by ring. rewrite SP, SM. unfold p, m. field.
  - rewrite Rabs_right in S by lra. split; [|nra]. replace (sqrt p * sqrt p - 1 * sqrt m * (1 * sqrt m)) with (sqrt p * sqrt p - sqrt m * sqrt m) by ring. rewrite SP, SM. unfold p, m. field.
Qed.
Lemma csqrt_conj z : snd z < 0 -> c_sqrt (fst z, - snd z) = (fst (c_sqrt z), - snd (c_sqrt z)).
Proof.
  intros H. unfold c_sqrt. cbn [fst snd]. replace (cabs (fst z, - snd z)) with (cabs z) by (unfold cabs; cbn [fst snd]; f_equal; ring). unfold Rltb. destruct (Rlt_dec (snd z) 0); [|lra]. destruct (Rlt_dec (- snd z) 0); [lra|]. f_equal. ring.
Qed.
Lemma csqrt_sign z : snd z < 0 -> 0 < fst (c_sqrt z) /\ snd (c_sqrt z) < 0.
Proof.
  intros H. destruct (csqrt_parts z) as [_ E]. assert (A : 0 <= fst (c_sqrt z)) by (unfold c_sqrt; cbn [fst]; apply sqrt_pos). assert (B : snd (c_sqrt z) <= 0). { unfold c_sqrt. cbn [snd]. unfold Rltb. destruct (Rlt_dec (snd z) 0); [|lra]. pose proof (sqrt_pos ((cabs z - fst z) / 2)). lra. } split; nra.
Qed.

(** polynomials with given roots *)
Ltac list_ring := repeat (apply f_equal2; [first [ring|apply f_equal2; ring]|]); reflexivity.
Lemma poly_pair p : np_poly [p; (fst p, - snd p)] = [(1, 0); (- 2 * fst p, 0); (nrm p, 0)].
Proof. unfold np_poly, nrm. cbn. unfold csub2, cmul. cbn. list_ring. Qed.
Lemma real_pair p : real_poly [p; (fst p, - snd p)] = [1; - 2 * fst p; nrm p].
Proof. unfold real_poly. rewrite poly_pair. reflexivity. Qed.
Lemma poly_two_pairs p q : np_poly [p; (fst p, - snd p); q; (fst q, - snd q)] = map (fun c => (c, 0)) (times [1; - 2 * fst p; nrm p] [1; - 2 * fst q; nrm q]).
Proof. unfold np_poly, nrm, times. cbn. unfold csub2, cmul. cbn. list_ring. Qed.
Lemma real_two_pairs p q : real_poly [p; (fst p, - snd p); q; (fst q, - snd q)] = times [1; - 2 * fst p; nrm p] [1; - 2 * fst q; nrm q].
Proof. unfold real_poly. rewrite poly_two_pairs, map_map. cbn [fst]. apply map_id. Qed.
Lemma real_zeros : real_poly [(1, 0); (1, 0); (-1, 0); (-1, 0)] = [1; 0; -2; 0; 1].
Proof. unfold real_poly, np_poly. cbn. unfold csub2, cmul. cbn. list_ring. Qed.
Lemma roots_two_pairs p q : all_roots (times [1; - 2 * fst p; nrm p] [1; - 2 * fst q; nrm q]) [p; (fst p, - snd p); q; (fst q, - snd q)].
Proof.
  split; [reflexivity|]. intros [u v]. unfold times, polynomial, product, nrm. cbn. unfold csum, cscal, cmul. cbn. f_equal; ring.
Qed.
