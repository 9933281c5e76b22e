(** Forward-backward filters: what they do to constants, sums and, without feedback, to any signal. *)
From Coq Require Import Lra Lia.
From Verif Require Import Base BaseFacts M_utils M_sig M_process M_sph0 M_sph M_process3 S_process3 P_sig P_lfilter M_process4 S_process4 P_ff1 P_ff2 P_ff3.
Open Scope R_scope.

Lemma ff_iff b a x w : filtfilt b a x = Ok w <-> ff_ready b a x /\ forward_backward b a (3 * Nat.max (length a) (length b)) x w.
Proof.
  split; [apply ff_inv|]. intros [R F]. destruct (ff_exists b a x R) as [w' E]. destruct (ff_inv _ _ _ _ E) as [_ F']. rewrite E. f_equal. destruct R as (A & _). apply (fb_unique b a _ x _ _ A F F').
Qed.
Lemma sosff_iff l x w : sosfiltfilt l x = Ok w <-> sos_ready l x /\ forward_backward (sections_b l) (sections_a l) (3 * sos_taps l) x w.
Proof.
  split; [apply sosff_inv|]. intros [R F]. destruct (sosff_exists l x R) as [w' E]. destruct (sosff_inv _ _ _ E) as [_ F']. rewrite E. f_equal. assert (A : nth 0 (sections_a l) 0 <> 0). { destruct R as [H _]. clear - H. induction l as [|s l IH]; [cbn; lra|]. cbn [sections_a fold_right]. fold (sections_a l). rewrite nth0_times by (try apply sections_ne; discriminate). apply Rmult_integral_contrapositive_currified; [cbn; rewrite (proj1 (H s (or_introl eq_refl))); lra|]. apply IH. intros s' I. apply H. right. exact I. }
  apply (fb_unique _ _ _ x _ _ A F F').
Qed.
Lemma sections_sum l : (forall s, In s l -> lsum (s_a s) <> 0) -> lsum (sections_a l) <> 0.
Proof. induction l as [|s l IH]; intros H; [cbn; lra|]. cbn [sections_a fold_right]. fold (sections_a l). rewrite lsum_times. apply Rmult_integral_contrapositive_currified; [apply H; left; reflexivity|]. apply IH. intros s' I. apply H. right. exact I. Qed.

(** without feedback: the samples weighted by the autocorrelation of the coefficients *)
Lemma fir_rest b a0 x y n : a0 <> 0 -> from_rest b [a0] x y -> (n < length x)%nat -> (length b <= S n)%nat -> nth n y 0 = rsum (length b) (fun k => nth k b 0 * nth (n - k) x 0) / a0.
Proof.
  intros A [L H] N LB. specialize (H n N). unfold taps at 1 in H. cbn [length rsum nth] in H. unfold held at 1 in H. destruct (Z.ltb_spec (Z.of_nat n - Z.of_nat 0) 0); [lia|]. replace (Z.to_nat (Z.of_nat n - Z.of_nat 0)) with n in H by lia. rewrite Rplus_0_l in H. apply (Rmult_eq_reg_l a0); [|exact A]. rewrite H. unfold taps. rewrite (rsum_ext (length b) _ (fun k => nth k b 0 * nth (n - k) x 0)); [field; exact A|]. intros k K. f_equal. unfold held. destruct (Z.ltb_spec (Z.of_nat n - Z.of_nat k) 0); [lia|]. f_equal. lia.
Qed.
Lemma fb_fir b a0 e x w n : a0 <> 0 -> (length b <= e)%nat -> forward_backward b [a0] e x w -> (n < length x)%nat ->
  nth n w 0 = rsum (length b) (fun i => rsum (length b) (fun j => nth i b 0 * nth j b 0 * turned x (Z.of_nat n + Z.of_nat i - Z.of_nat j)%Z)) / a0 ^ 2.
Proof.
  intros A LB (L & ext & y & v & LE & X & Y & V & W) N. rewrite W by exact N. pose proof (proj1 Y) as LY. pose proof (proj1 V) as LV. rewrite !rev_length in LV. assert (EV : nth (e + n) v 0 = nth (length v - 1 - (e + n)) (rev v) 0). { rewrite nth_rev' by lia. f_equal. lia. } rewrite EV.
  rewrite (fir_rest b a0 (rev y) (rev v)) by (try assumption; rewrite ?rev_length; lia). unfold Rdiv. replace (/ a0 ^ 2) with (/ a0 * / a0) by (field; exact A). rewrite <- Rmult_assoc. f_equal. rewrite <- rsum_scal_r. apply rsum_ext. intros i I. rewrite nth_rev' by lia. replace (length y - 1 - (length v - 1 - (e + n) - i))%nat with (e + n + i)%nat by lia.
  rewrite (fir_rest b a0 ext y) by (try assumption; lia). unfold Rdiv. rewrite <- Rmult_assoc. f_equal. rewrite <- rsum_scal. apply rsum_ext. intros j J. rewrite X by lia. replace (Z.of_nat (e + n + i - j) - Z.of_nat e)%Z with (Z.of_nat n + Z.of_nat i - Z.of_nat j)%Z by lia. ring.
Qed.
