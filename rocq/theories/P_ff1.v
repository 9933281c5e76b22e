(** Forward-backward filters: initial states and the equations they solve. *)
From Coq Require Import Lra Lia.
From Verif Require Import Base BaseFacts M_utils M_sig M_process M_sph0 M_sph M_process3 S_process3 P_sig P_lfilter M_process4 S_process4.
Open Scope R_scope.

Definition tail_sum (p : list R) (n : nat) : R := rsum (length p - n) (fun j => nth (n + j) p 0).
Lemma lsum_split p n : lsum p = rsum n (fun j => nth j p 0) + tail_sum p n.
Proof.
  rewrite lsum_nth. unfold tail_sum. destruct (Nat.le_gt_cases n (length p)) as [H|H].
  - replace (length p) with (n + (length p - n))%nat at 1 by lia. apply rsum_app.
  - replace (length p - n)%nat with 0%nat by lia. cbn [rsum]. rewrite Rplus_0_r. replace n with (length p + (n - length p))%nat by lia. rewrite rsum_app. rewrite (rsum_0 (n - length p)); [ring|]. intros i I. apply nth_overflow. lia.
Qed.
Lemma taps_held p c x n : taps p (held c x) (Z.of_nat n) = cv (sq p) (sq x) n + c * tail_sum p (S n).
Proof.
  unfold taps, cv, tail_sum, sq. destruct (Nat.le_gt_cases (length p) (S n)) as [H|H].
  - replace (length p - S n)%nat with 0%nat by lia. cbn [rsum]. rewrite Rmult_0_r, Rplus_0_r. change (rsum n (fun k => nth k p 0 * nth (n - k) x 0) + nth n p 0 * nth (n - n) x 0) with (rsum (S n) (fun k => nth k p 0 * nth (n - k) x 0)). replace (S n) with (length p + (S n - length p))%nat by lia. rewrite rsum_app. rewrite (rsum_0 (S n - length p)) by (intros i I; rewrite (nth_overflow p) by lia; ring). rewrite Rplus_0_r. apply rsum_ext. intros k K. unfold held. destruct (Z.ltb_spec (Z.of_nat n - Z.of_nat k) 0); [lia|]. f_equal. f_equal. lia.
  - replace (length p) with (S n + (length p - S n))%nat at 1 by lia. rewrite rsum_app. f_equal.
    + apply rsum_ext. intros k K. unfold held. destruct (Z.ltb_spec (Z.of_nat n - Z.of_nat k) 0); [lia|]. f_equal. f_equal. lia.
    + rewrite <- rsum_scal. apply rsum_ext. intros k K. unfold held. destruct (Z.ltb_spec (Z.of_nat n - Z.of_nat (S n + k)) 0); [ring|lia].
Qed.

(** the state at rest *)
Lemma rest_nth n b a k : length b = n -> length a = n -> (1 <= n)%nat -> nth 0 a 0 = 1 -> lsum a <> 0 ->
  nth k (rest_state n b a) 0 = tail_sum b (S k) - dc_gain b a * tail_sum a (S k).
Proof.
  intros LB LA N A0 SA. unfold rest_state. set (z0 := _ / _).
  destruct (Nat.lt_ge_cases k (n - 1)) as [K|K].
  - rewrite (nth_map_seq (fun k => rsum (S k) (fun j => nth j a 0) * z0 - rsum k (fun j => nth (S j) b 0 - nth (S j) a 0 * nth 0 b 0))) by exact K.
    assert (HB : forall m, rsum m (fun j => nth (S j) b 0 - nth (S j) a 0 * nth 0 b 0) = rsum (S m) (fun j => nth j b 0) - nth 0 b 0 * rsum (S m) (fun j => nth j a 0)).
    { intros m. rewrite !rsum_shift, A0. rewrite (rsum_ext m _ (fun j => nth (S j) b 0 + - nth 0 b 0 * nth (S j) a 0)) by (intros; ring). rewrite rsum_plus, rsum_scal. ring. }
    assert (Z0 : z0 = dc_gain b a - nth 0 b 0).
    { unfold z0, dc_gain. rewrite HB. replace (S (n - 1)) with n by lia. rewrite <- LB at 1. rewrite <- LA. rewrite <- !lsum_nth. field. exact SA. }
    rewrite HB, Z0. pose proof (lsum_split b (S k)) as EB. pose proof (lsum_split a (S k)) as EA. assert (G : lsum b = dc_gain b a * lsum a) by (unfold dc_gain; field; exact SA).
    assert (TB : rsum (S k) (fun j => nth j b 0) = lsum b - tail_sum b (S k)) by lra. assert (TA : rsum (S k) (fun j => nth j a 0) = lsum a - tail_sum a (S k)) by lra. rewrite TB, TA, G. ring.
  - rewrite nth_overflow by (rewrite map_length, seq_length; exact K). unfold tail_sum. replace (length b - S k)%nat with 0%nat by lia. replace (length a - S k)%nat with 0%nat by lia. cbn. ring.
Qed.
Lemma nth_scale c l k : nth k (map (fun z => z * c) l) 0 = nth k l 0 * c.
Proof. destruct (Nat.lt_ge_cases k (length l)) as [H|H]; [rewrite (nth_map_in _ l k 0 0) by exact H; reflexivity|]. rewrite !nth_overflow by (rewrite ?map_length; exact H). ring. Qed.
Lemma length_rest n b a : length (rest_state n b a) = (n - 1)%nat.
Proof. unfold rest_state. rewrite map_length, seq_length. reflexivity. Qed.
Lemma drop_lead_id a : nth 0 a 0 <> 0 -> drop_lead a = a.
Proof. destruct a as [|a0 [|a1 a]]; cbn; try reflexivity. intros H. destruct (Req_EM_T a0 0); [contradiction|reflexivity]. Qed.
(** sums of padded, scaled coefficients *)
Lemma tail_norm n a0 p k : a0 <> 0 -> (length p <= n)%nat -> tail_sum (pad_to n (map (fun c => c / a0) p)) k = / a0 * tail_sum p k.
Proof.
  intros A L. unfold tail_sum. rewrite length_pad by (rewrite map_length; exact L). rewrite <- rsum_scal. destruct (Nat.le_gt_cases k (length p)) as [H|H].
  - replace (n - k)%nat with ((length p - k) + (n - length p))%nat by lia. rewrite rsum_app. rewrite (rsum_0 (n - length p)); [|intros i I; rewrite nth_pad, nth_div, (nth_overflow p) by lia; unfold Rdiv; ring]. rewrite Rplus_0_r. apply rsum_ext. intros i I. rewrite nth_pad, nth_div. unfold Rdiv. ring.
  - replace (length p - k)%nat with 0%nat by lia. cbn [rsum]. apply rsum_0. intros i I. rewrite nth_pad, nth_div, (nth_overflow p) by lia. unfold Rdiv. ring.
Qed.
Lemma lsum_norm n a0 p : a0 <> 0 -> (length p <= n)%nat -> lsum (pad_to n (map (fun c => c / a0) p)) = / a0 * lsum p.
Proof. intros A L. rewrite (lsum_split (pad_to _ _) 0), (lsum_split p 0), tail_norm by assumption. cbn [rsum]. ring. Qed.
Lemma cv_norm n a0 p x k : a0 <> 0 -> cv (sq (pad_to n (map (fun c => c / a0) p))) x k = / a0 * cv (sq p) x k.
Proof. intros A. rewrite <- cv_scal_l. apply cv_ext; [|reflexivity]. intros j J. unfold sq. rewrite nth_pad, nth_div. unfold Rdiv. ring. Qed.

Lemma run_from_rest b a x c zi y : nth 0 a 0 <> 0 -> lfilter_zi b a = Ok zi -> lfilter_from b a x (map (fun z => z * c) zi) = Ok y ->
  length y = length x /\ forall n, (n < length x)%nat -> taps a (held (dc_gain b a * c) y) (Z.of_nat n) = taps b (held c x) (Z.of_nat n).
Proof.
  intros A EZ EF. unfold lfilter_zi in EZ. rewrite drop_lead_id in EZ by exact A. destruct a as [|a0 a]; [discriminate|]. cbn [nth] in A. destruct (Req_EM_T a0 0); [contradiction|].
  destruct b as [|b0 b]; [cbn in EF; discriminate|]. unfold lfilter_from in EF. set (aa := a0 :: a) in *. set (bb := b0 :: b) in *. set (m := Nat.max (length aa) (length bb)) in *. destruct (Req_EM_T a0 0); [contradiction|].
  set (bn := pad_to m (map (fun c => c / a0) bb)) in *. set (an := pad_to m (map (fun c => c / a0) aa)) in *. cbv zeta in EZ, EF. fold bn an in EZ. revert EZ. destruct (Nat.leb_spec m 1) as [M1|M1]; [discriminate|]. destruct (Req_EM_T (lsum an) 0) as [Z|Z]; [discriminate|]. intros EZ. apply (f_equal (fun r => match r with Ok v => v | Err _ => [] end)) in EZ. cbn beta iota in EZ. subst zi.
  revert EF. destruct (Nat.eqb_spec (length (map (fun z => z * c) (rest_state m bn an))) (m - 1)) as [L|L]; [|discriminate]. intros EF. injection EF as <-. split; [apply df2t_length|]. intros k K. rewrite !taps_held.
  assert (LB : length bn = m) by (apply length_pad; rewrite map_length; unfold m; lia). assert (LA : length an = m) by (apply length_pad; rewrite map_length; unfold m; lia).
  assert (A1 : nth 0 an 0 = 1) by (unfold an; rewrite nth_pad, nth_div; unfold aa; cbn [nth]; field; exact A).
  pose proof (df2t_ok bn an (m - 1) x ltac:(lia) ltac:(lia) A1 (map (fun z => z * c) (rest_state m bn an)) L k K) as D. rewrite nth_scale, rest_nth in D by (try assumption; lia).
  assert (GG : dc_gain bn an = dc_gain bb aa). { unfold dc_gain, bn, an. rewrite !lsum_norm by (try exact A; unfold m; lia). assert (SA : lsum aa <> 0) by (intro E; apply Z; unfold an; rewrite lsum_norm by (try exact A; unfold m; lia); rewrite E; ring). field. split; assumption. }
  rewrite GG in D. set (y := df2t bn an _ x) in *. unfold bn, an in D. rewrite !cv_norm, !tail_norm in D by (try exact A; unfold m; lia). apply (Rmult_eq_reg_l (/ a0)); [|apply Rinv_neq_0_compat; exact A]. lra.
Qed.
Lemma rest_held b a x y : from_rest b a x y <-> length y = length x /\ forall n, (n < length x)%nat -> cv (sq a) (sq y) n + dc_gain b a * nth 0 x 0 * tail_sum a (S n) = cv (sq b) (sq x) n + nth 0 x 0 * tail_sum b (S n).
Proof. unfold from_rest. split; intros [L H]; (split; [exact L|]); intros n N; specialize (H n N); rewrite !taps_held in *; exact H. Qed.
Lemma rest_unique b a x y y' : nth 0 a 0 <> 0 -> from_rest b a x y -> from_rest b a x y' -> y' = y.
Proof.
  intros A H H'. apply rest_held in H. apply rest_held in H'. destruct H as [L H]. destruct H' as [L' H']. apply nth_ext with (d := 0) (d' := 0); [congruence|]. intros n N. rewrite L' in N. apply (cv_det (sq a) (sq y') (sq y) n A); [|lia]. intros k K. pose proof (H k ltac:(lia)). pose proof (H' k ltac:(lia)). lra.
Qed.
(** a constant input gives a constant output *)
Lemma rest_const b a c n : lsum a <> 0 -> from_rest b a (repeat c n) (repeat (dc_gain b a * c) n).
Proof.
  intros SA. apply rest_held. rewrite !repeat_length. split; [reflexivity|]. intros k K. assert (N0 : nth 0 (repeat c n) 0 = c) by (destruct n; [lia|reflexivity]). rewrite N0.
  assert (R1 : forall p v, cv (sq p) (sq (repeat v n)) k = v * rsum (S k) (fun j => nth j p 0)). { intros p v. unfold cv. rewrite <- rsum_scal. apply rsum_ext. intros j J. unfold sq. rewrite (nth_indep (repeat v n) 0 v) by (rewrite repeat_length; lia). rewrite nth_repeat. ring. }
  rewrite !R1. pose proof (lsum_split a (S k)). pose proof (lsum_split b (S k)). assert (G : lsum b = dc_gain b a * lsum a) by (unfold dc_gain; field; exact SA).
  replace (dc_gain b a * c * rsum (S k) (fun j => nth j a 0) + dc_gain b a * c * tail_sum a (S k)) with (c * (dc_gain b a * lsum a)) by (rewrite H; ring). rewrite <- G, H0. ring.
Qed.
(** weighted sums *)
Lemma cv_comb f g g' h c d n : (forall k, (k <= n)%nat -> h k = c * g k + d * g' k) -> cv f h n = c * cv f g n + d * cv f g' n.
Proof. intros H. rewrite <- !cv_scal_r, <- cv_plus_r. apply cv_ext; [reflexivity|exact H]. Qed.
Lemma rest_comb b a c d x x' y y' s t : from_rest b a x y -> from_rest b a x' y' -> length s = length x -> length x' = length x -> length t = length x ->
  (forall i, (i < length x)%nat -> nth i s 0 = c * nth i x 0 + d * nth i x' 0) -> (forall i, (i < length x)%nat -> nth i t 0 = c * nth i y 0 + d * nth i y' 0) -> from_rest b a s t.
Proof.
  intros H H' LS LX LT S T. apply rest_held in H. apply rest_held in H'. destruct H as [L H]. destruct H' as [L' H']. apply rest_held. split; [congruence|]. rewrite LS. intros n N.
  rewrite (S 0%nat) by lia. rewrite (cv_comb (sq a) (sq y) (sq y') (sq t) c d n), (cv_comb (sq b) (sq x) (sq x') (sq s) c d n) by (intros k K; unfold sq; first [apply T|apply S]; lia). pose proof (H n N) as E. pose proof (H' n ltac:(lia)) as E'.
  transitivity (c * (cv (sq a) (sq y) n + dc_gain b a * nth 0 x 0 * tail_sum a (Datatypes.S n)) + d * (cv (sq a) (sq y') n + dc_gain b a * nth 0 x' 0 * tail_sum a (Datatypes.S n))); [ring|]. rewrite E, E'. ring.
Qed.
