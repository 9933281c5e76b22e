(** The longest energy vector of a beam, and that of the max-rE weights. *)
From Verif Require Import Base BaseFacts M_utils M_sig M_sph0 M_sph S_sph P_sph1 P_sph3 P_sph12 S_parsa P_gl1 P_gl2 P_gl3 S_lgauss S_decoder2 S_modal P_modal P_modal2.
Open Scope R_scope.
Local Arguments eval_legendre : simpl never.

Lemma roots_top N x : roots (S N) x -> forall i, (i <= N)%nat -> Rabs (x i) <= x N.
Proof.
  intros H i Hi. assert (A : forall j, (j <= N)%nat -> x j <= x N).
  { intros j Hj. destruct (Nat.eq_dec j N) as [->|Ne]; [lra|]. left. apply H. lia. }
  apply Rabs_le. split; [|apply A; exact Hi]. pose proof (roots_sym (S N) x H i ltac:(lia)) as E. pose proof (A (S N - 1 - i)%nat ltac:(lia)). lra.
Qed.
Lemma roots_top_lt N x : roots (S N) x -> forall i, (i < N)%nat -> x i < x N.
Proof. intros H i Hi. apply H. lia. Qed.
Lemma en_pos w : (exists n, (n < length w)%nat /\ nth n w 0 <> 0) -> 0 < en w.
Proof.
  intros (n & Hn & Z). unfold en. pose proof PI_RGT_0 as PP. pose proof (pos_INR n) as Pn.
  assert (Q : forall k, 0 < (2 * INR k + 1) / (4 * PI)) by (intros k; pose proof (pos_INR k); apply Rdiv_lt_0_compat; lra).
  eapply Rlt_le_trans; [|apply (rsum_ge_term (length w) (fun n => (2 * INR n + 1) / (4 * PI) * nth n w 0 ^ 2) n)].
  - apply Rmult_lt_0_compat; [apply Q|]. destruct (Rle_lt_or_eq_dec 0 _ (pow2_ge_0 (nth n w 0))) as [L|E]; [exact L|]. exfalso. apply (pow_nonzero _ 2 Z). auto.
  - intros i _. apply Rmult_le_pos; [left; apply Q|apply pow2_ge_0].
  - exact Hn.
Qed.
Section Bound.
Variables (N : nat) (x : nat -> R) (w : list R).
Hypothesis RX : roots (S N) x.
Hypothesis LW : length w = (N + 1)%nat.
Lemma moment_bound m : beam_moment w m -> Rabs m <= x N * en w.
Proof.
  intros H. pose proof PI_RGT_0 as PP. rewrite (moment_unique w m _ ltac:(lia) H (moment_quad N x w RX LW)).
  replace (en w) with (2 * PI * (en w / (2 * PI))) by (field; lra). rewrite (en_quad N x w RX LW), Rabs_mult, (Rabs_right (2 * PI)) by lra.
  replace (x N * (2 * PI * rsum (S N) (fun i => gw N x i * amp w (x i) ^ 2))) with (2 * PI * (x N * rsum (S N) (fun i => gw N x i * amp w (x i) ^ 2))) by ring.
  apply Rmult_le_compat_l; [lra|]. unfold gm. eapply Rle_trans; [apply rsum_abs|]. rewrite rsum_scal_l. apply rsum_le. intros i Hi.
  pose proof (gw_pos N x i) as G. pose proof (pow2_ge_0 (amp w (x i))) as A. rewrite !Rabs_mult, (Rabs_right (gw N x i)), (Rabs_right (amp w (x i) ^ 2)) by lra.
  replace (x N * (gw N x i * amp w (x i) ^ 2)) with (gw N x i * (amp w (x i) ^ 2 * x N)) by ring.
  apply Rmult_le_compat_l; [lra|]. apply Rmult_le_compat_l; [exact A|]. apply roots_top; [exact RX|lia].
Qed.
Lemma moment_best : beam_moment w (x N * en w) -> exists k, forall n, (n <= N)%nat -> nth n w 0 = k * eval_legendre n (x N).
Proof.
  intros H. pose proof PI_RGT_0 as PP. pose proof (moment_unique w _ _ ltac:(lia) H (moment_quad N x w RX LW)) as E.
  replace (en w) with (2 * PI * (en w / (2 * PI))) in E by (field; lra). rewrite (en_quad N x w RX LW) in E.
  assert (E1 : rsum (S N) (fun i => gw N x i * amp w (x i) ^ 2 * (x N - x i)) = 0).
  { rewrite (rsum_ext (S N) _ (fun i => x N * (gw N x i * amp w (x i) ^ 2) + (-1) * (gw N x i * (amp w (x i) ^ 2 * x i)))) by (intros; ring).
    rewrite rsum_plus, !rsum_scal. fold (gm N x w). apply (Rmult_eq_reg_l (2 * PI)); [|lra]. lra. }
  assert (T : forall i, (i < S N)%nat -> 0 <= gw N x i * amp w (x i) ^ 2 * (x N - x i)).
  { intros i Hi. pose proof (gw_pos N x i). pose proof (pow2_ge_0 (amp w (x i))). pose proof (roots_top N x RX i ltac:(lia)). pose proof (Rle_abs (x i)). apply Rmult_le_pos; [apply Rmult_le_pos; lra|lra]. }
  assert (Z : forall i, (i < N)%nat -> amp w (x i) = 0).
  { intros i Hi. pose proof (rsum_ge_term (S N) (fun i => gw N x i * amp w (x i) ^ 2 * (x N - x i)) i T ltac:(lia)) as B. cbv beta in B. rewrite E1 in B.
    pose proof (roots_top_lt N x RX i Hi) as L. pose proof (gw_pos N x i) as G. pose proof (pow2_ge_0 (amp w (x i))) as A.
    destruct (Req_dec (amp w (x i)) 0) as [Y|Y]; [exact Y|]. exfalso. pose proof (pow_nonzero _ 2 Y) as Y2. assert (0 < amp w (x i) ^ 2) by lra.
    assert (0 < gw N x i * amp w (x i) ^ 2 * (x N - x i)) by (apply Rmult_lt_0_compat; [apply Rmult_lt_0_compat; lra|lra]). lra. }
  assert (I : forall y, amp w y = amp w (x N) / kern (S N) (x N) (x N) * kern (S N) (x N) y).
  { intros y. rewrite (interp N x (roots_distinct _ _ RX) (fun i Hi => proj1 (proj1 RX i Hi)) (amp w) (amp_span N w LW) y).
    rewrite (rsum_single (S N) N); [unfold Rdiv; ring|lia|]. intros i Hi Ne. rewrite Z by lia. ring. }
  set (k := amp w (x N) / kern (S N) (x N) (x N)) in *. exists (4 * PI * k). intros n Hn.
  assert (Q : w = map (fun n => 4 * PI * k * eval_legendre n (x N)) (seq 0 (N + 1))).
  { apply amp_inj; [rewrite map_length, seq_length; exact LW|]. intros y _. rewrite I. unfold amp. rewrite map_length, seq_length. replace (N + 1)%nat with (S N) by lia. unfold kern. rewrite rsum_scal_l. apply rsum_ext. intros i Hi.
    rewrite nth_map_seq by lia. field. lra. }
  rewrite Q, nth_map_seq by lia. ring.
Qed.
End Bound.

(** weights P_n(r) *)
Definition at_r (N : nat) (k r : R) : list R := map (fun n => k * eval_legendre n r) (seq 0 (N + 1)).
Lemma at_r_len N k r : length (at_r N k r) = (N + 1)%nat. Proof. unfold at_r. rewrite map_length, seq_length. reflexivity. Qed.
Lemma at_r_amp N k r y : amp (at_r N k r) y = k / (4 * PI) * kern (S N) y r.
Proof.
  unfold amp. rewrite at_r_len. replace (N + 1)%nat with (S N) by lia. unfold kern. rewrite rsum_scal_l. apply rsum_ext. intros i Hi. unfold at_r. rewrite nth_map_seq by lia. field. apply PI_neq0.
Qed.
Lemma kern_sq N r : pint (fun y => kern (S N) y r * kern (S N) y r) (2 * kern (S N) r r).
Proof.
  apply (pint_ext (fun y => rsum (S N) (fun i => ((2 * INR i + 1) * eval_legendre i r) * eval_legendre i y) * rsum (S N) (fun i => ((2 * INR i + 1) * eval_legendre i r) * eval_legendre i y))).
  { intros y. unfold kern. f_equal; apply rsum_ext; intros; ring. }
  replace (2 * kern (S N) r r) with (rsum (S N) (fun i => ((2 * INR i + 1) * eval_legendre i r) * ((2 * INR i + 1) * eval_legendre i r) * (2 / (2 * INR i + 1)))); [apply pint_series|].
  unfold kern. rewrite rsum_scal_l. apply rsum_ext. intros i _. field. pose proof (pos_INR i). lra.
Qed.
Lemma kern_mom N r : pint (fun y => kern (S N) y r * kern (S N) y r * y) (2 * (r * kern (S N) r r - (INR N + 1) * eval_legendre N r * eval_legendre (S N) r)).
Proof.
  apply (pint_ext (fun y => r * (kern (S N) y r * kern (S N) y r) + 1 * ((INR N + 1) * eval_legendre N r * (kern (S N) y r * eval_legendre (S N) y)
     + (- (INR N + 1) * eval_legendre (S N) r) * (eval_legendre N y * kern (S N) y r)))).
  { intros y. pose proof (kern_cd N y r) as C. replace (kern (S N) y r * kern (S N) y r * y) with (r * (kern (S N) y r * kern (S N) y r) + ((y - r) * kern (S N) y r) * kern (S N) y r) by ring. rewrite C. ring. }
  replace (2 * (r * kern (S N) r r - (INR N + 1) * eval_legendre N r * eval_legendre (S N) r)) with (r * (2 * kern (S N) r r) + 1 * ((INR N + 1) * eval_legendre N r * 0 + (- (INR N + 1) * eval_legendre (S N) r) * (2 * eval_legendre N r))) by ring.
  apply pint_lin; [apply kern_sq|]. apply (pint_lin ((INR N + 1) * eval_legendre N r) (- (INR N + 1) * eval_legendre (S N) r)).
  - apply pint_span. exists (fun j => (2 * INR j + 1) * eval_legendre j r). intros y. unfold kern. apply rsum_ext. intros. ring.
  - apply (pint_ext (fun y => rsum (S N) (fun i => delta N i * eval_legendre i y) * rsum (S N) (fun i => ((2 * INR i + 1) * eval_legendre i r) * eval_legendre i y))).
    { intros y. rewrite (rsum_single (S N) N (fun i => delta N i * eval_legendre i y)).
      - unfold delta. rewrite Nat.eqb_refl, Rmult_1_l. unfold kern. f_equal. apply rsum_ext. intros. ring.
      - lia.
      - intros i _ Ne. unfold delta. destruct (Nat.eqb_spec N i); [congruence|ring]. }
    replace (2 * eval_legendre N r) with (rsum (S N) (fun i => delta N i * ((2 * INR i + 1) * eval_legendre i r) * (2 / (2 * INR i + 1)))); [apply pint_series|].
    rewrite (rsum_single (S N) N); [unfold delta; rewrite Nat.eqb_refl; pose proof (pos_INR N); field; lra|lia|].
    intros i _ Ne. unfold delta. destruct (Nat.eqb_spec N i); [congruence|ring].
Qed.
Lemma at_r_energy N k r : en (at_r N k r) = k ^ 2 / (4 * PI) * kern (S N) r r.
Proof.
  pose proof PI_RGT_0 as PP. assert (P : pint (fun y => amp (at_r N k r) y ^ 2) ((k / (4 * PI)) ^ 2 * (2 * kern (S N) r r))).
  { apply (pint_ext (fun y => (k / (4 * PI)) ^ 2 * (kern (S N) y r * kern (S N) y r))); [intros; rewrite at_r_amp; ring|]. apply pint_scal, kern_sq. }
  pose proof (pint_unique _ _ _ (amp_sq _) P) as U. replace (en (at_r N k r)) with (2 * PI * (en (at_r N k r) / (2 * PI))) by (field; lra). rewrite U. field. lra.
Qed.
Lemma at_r_moment N k r : beam_moment (at_r N k r) (k ^ 2 / (4 * PI) * (r * kern (S N) r r - (INR N + 1) * eval_legendre N r * eval_legendre (S N) r)).
Proof.
  pose proof PI_RGT_0 as PP. set (v := r * kern (S N) r r - (INR N + 1) * eval_legendre N r * eval_legendre (S N) r).
  replace (k ^ 2 / (4 * PI) * v) with (2 * PI * ((k / (4 * PI)) ^ 2 * (2 * v))) by (field; lra). apply moment_ex; [rewrite at_r_len; lia|].
  apply (pint_ext (fun y => (k / (4 * PI)) ^ 2 * (kern (S N) y r * kern (S N) y r * y))); [intros; rewrite at_r_amp; ring|]. apply pint_scal, kern_mom.
Qed.
Lemma at_top N x w : roots (S N) x -> length w = (N + 1)%nat -> (exists k, forall n, (n <= N)%nat -> nth n w 0 = k * eval_legendre n (x N)) -> beam_moment w (x N * en w).
Proof.
  intros RX LW (k & H). assert (E : w = at_r N k (x N)).
  { apply (nth_ext _ _ 0 0); [rewrite at_r_len; exact LW|]. intros n Hn. unfold at_r. rewrite nth_map_seq, H by lia. reflexivity. }
  rewrite E, at_r_energy. replace (x N * (k ^ 2 / (4 * PI) * kern (S N) (x N) (x N))) with (k ^ 2 / (4 * PI) * (x N * kern (S N) (x N) (x N) - (INR N + 1) * eval_legendre N (x N) * eval_legendre (S N) (x N))); [apply at_r_moment|].
  rewrite (proj1 (proj1 RX N ltac:(lia))). ring.
Qed.

(** the weights of the code *)
Definition r_code (N : nat) : R := cos (1379 / 10 * PI / 180 / (INR N + 151 / 100)).
Lemma maxre_list N : max_rE_weights N = at_r N 1 (r_code N).
Proof. unfold max_rE_weights, at_r. apply map_ext. intros n. rewrite Rmult_1_l. reflexivity. Qed.
Lemma maxre_true N : exists a, 0 < a /\ maxre_modal_weights N true = Ok (Some (at_r N (/ a) (r_code N))) /\ unit_response (at_r N (/ a) (r_code N)).
Proof.
  pose proof (maxre_response_pos N) as P. assert (L : length (max_rE_weights N) = (N + 1)%nat) by (rewrite maxre_list; apply at_r_len).
  destruct (unit_amp_ok N (max_rE_weights N) L ltac:(lra)) as [E U]. exists (response0 (max_rE_weights N)). split; [exact P|].
  assert (Q : map (fun x => x / response0 (max_rE_weights N)) (max_rE_weights N) = at_r N (/ response0 (max_rE_weights N)) (r_code N)).
  { set (a := response0 _). rewrite maxre_list. unfold at_r. rewrite map_map. apply map_ext. intros n. unfold Rdiv. ring. }
  rewrite <- Q. split; [exact E|exact U].
Qed.
