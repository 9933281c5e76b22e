(** Stability: poles inside the unit circle, and only those. *)
From Coq Require Import Lra Lia Ring.
From Verif Require Import Base BaseFacts M_utils M_sig M_sph0 M_sph M_parsa3 M_process3 S_process3 M_zp S_zp P_lfilter P_proc1 P_cplx P_zp1 P_zp2.
Open Scope R_scope.

Lemma rsum_le' n f g : (forall i, (i < n)%nat -> f i <= g i) -> rsum n f <= rsum n g.
Proof. induction n as [|n IH]; intros H; cbn [rsum]; [lra|]. pose proof (H n ltac:(lia)). pose proof (IH ltac:(intros; apply H; lia)). lra. Qed.
Lemma rsum_pos n f : (forall i, (i < n)%nat -> 0 <= f i) -> 0 <= rsum n f.
Proof. intros H. rewrite <- (rsum_0 n (fun _ => 0)) by reflexivity. apply rsum_le'. exact H. Qed.
Lemma rsum_abs n f : Rabs (rsum n f) <= rsum n (fun k => Rabs (f k)).
Proof. induction n as [|n IH]; cbn [rsum]; [rewrite Rabs_R0; lra|]. pose proof (Rabs_triang (rsum n f) (f n)). lra. Qed.
Lemma geom_sum rho n : 0 <= rho < 1 -> rsum n (fun k => rho ^ k) <= / (1 - rho).
Proof.
  intros H. assert (E : rsum n (fun k => rho ^ k) * (1 - rho) = 1 - rho ^ n) by (induction n as [|n IH]; cbn [rsum pow]; [ring|rewrite Rmult_plus_distr_r, IH; ring]). apply (Rmult_le_reg_r (1 - rho)); [lra|]. rewrite E, Rinv_l by lra. pose proof (pow_le rho n ltac:(lra)). lra.
Qed.
(** a radius between the poles and the circle *)
Lemma radius l : inside 1 l -> exists rho, 0 < rho < 1 /\ inside rho l.
Proof.
  induction l as [|p l IH]; intros H; [exists (1/2); split; [lra|intros p []]|]. destruct IH as (rho & R & I); [intros q Q; apply H; right; exact Q|]. pose proof (H p (or_introl eq_refl)) as P. pose proof (cabs_ge0 p). exists (Rmax rho ((1 + cabs p) / 2)). pose proof (Rmax_l rho ((1 + cabs p) / 2)). pose proof (Rmax_r rho ((1 + cabs p) / 2)).
  split; [split; [lra|apply Rmax_lub_lt; lra]|]. intros q [<-|Q]; [lra|]. specialize (I q Q). lra.
Qed.
Lemma impulse_exists b a x y : x <> [] -> lfilter b a x = Ok y -> exists h, lfilter b a (impulse (length x)) = Ok h.
Proof. intros X E. destruct (lfilter_inv _ _ _ _ E) as (A & B & C). destruct (lfilter_ok b a (impulse (length x)) A B) as (h & H & _); [left; discriminate|]. exists h. exact H. Qed.
Lemma f_stable : forall eig b a, solves_for eig a -> inside 1 (zp_poles (zeropole eig b a true)) -> stable b a.
Proof.
  intros eig b a S I. destruct (radius _ I) as (rho & R & J). destruct (f_decay eig b a rho S ltac:(lra) J) as (M & M0 & H). exists (M * / (1 - rho)). intros x y X E B i Hi. assert (XN : x <> []) by (intros ->; cbn in Hi; lia). destruct (impulse_exists b a x y XN E) as (h & Eh).
  rewrite (f_impulse b a x y h XN E Eh i Hi). assert (LX : (1 <= length x)%nat) by lia. assert (X0 : 0 <= X) by (pose proof (B 0%nat ltac:(lia)); pose proof (Rabs_pos (nth 0 x 0)); lra). eapply Rle_trans; [apply rsum_abs|].
  apply Rle_trans with (rsum (Datatypes.S i) (fun k => M * X * rho ^ k)).
  - apply rsum_le'. intros k K. rewrite Rabs_mult. specialize (H (length x) h LX Eh k ltac:(lia)). specialize (B (i - k)%nat ltac:(lia)). pose proof (Rabs_pos (nth k h 0)). pose proof (Rabs_pos (nth (i - k) x 0)). replace (M * X * rho ^ k) with (M * rho ^ k * X) by ring. apply Rmult_le_compat; assumption.
  - rewrite rsum_scal. pose proof (geom_sum rho (Datatypes.S i) ltac:(lra)). replace (M * / (1 - rho) * X) with (M * X * / (1 - rho)) by ring. apply Rmult_le_compat_l; [apply Rmult_le_pos; assumption|assumption].
Qed.

(** ** the converse *)
(** bounded: the impulse response is summable *)
Definition sgn (x : R) : R := if Rle_dec 0 x then 1 else -1.
Lemma sgn_abs x : x * sgn x = Rabs x.
Proof. unfold sgn. destruct (Rle_dec 0 x); [rewrite Rabs_right by lra; ring|rewrite Rabs_left by lra; ring]. Qed.
Lemma summable b a K N h : bounded_by b a K -> (1 <= N)%nat -> lfilter b a (impulse N) = Ok h -> rsum N (fun k => Rabs (nth k h 0)) <= K.
Proof.
  intros B HN E. set (x := map (fun i => sgn (nth (N - 1 - i) h 0)) (seq 0 N)). assert (LX : length x = N) by (unfold x; rewrite map_length, seq_length; reflexivity). assert (XN : x <> []) by (intros Z; rewrite Z in LX; cbn in LX; lia).
  destruct (lfilter_inv _ _ _ _ E) as (A & B0 & _). destruct (lfilter_ok b a x A B0 (or_introl XN)) as (y & Ey & _). assert (NX : forall i, (i < N)%nat -> nth i x 0 = sgn (nth (N - 1 - i) h 0)) by (intros i I; unfold x; rewrite (nth_map_seq (fun i => sgn (nth (N - 1 - i) h 0))) by exact I; reflexivity).
  assert (HB : forall i, (i < length x)%nat -> Rabs (nth i x 0) <= 1) by (intros i I; rewrite LX in I; rewrite NX by exact I; unfold sgn; destruct (Rle_dec _ _); [rewrite Rabs_R1|rewrite Rabs_left by lra]; lra). specialize (B x y 1 Ey HB (N - 1)%nat ltac:(lia)).
  rewrite <- LX in E. unfold impulse in E. rewrite (f_impulse b a x y h XN Ey E (N - 1)%nat ltac:(lia)) in B. replace (S (N - 1)) with N in B by lia. rewrite (rsum_ext N _ (fun k => Rabs (nth k h 0))) in B; [|intros k K0; rewrite NX by lia; replace (N - 1 - (N - 1 - k))%nat with k by lia; apply sgn_abs]. rewrite Rmult_1_r in B. eapply Rle_trans; [|exact B]. apply Rle_abs.
Qed.
Lemma csum_le_abs n f g : (forall k, (k < n)%nat -> cabs (f k) <= g k) -> cabs (csum n f) <= rsum n g.
Proof. intros H. eapply Rle_trans; [apply cabs_csum|]. apply rsum_le'. exact H. Qed.
(** sum over a triangle, by rows or by columns *)
Lemma triangle n : forall f : nat -> nat -> C2, csum n (fun i => csum (S i) (fun k => f k (i - k)%nat)) = csum n (fun k => csum (n - k) (f k)).
Proof.
  induction n as [|n IH]; intros f; [reflexivity|]. rewrite csum_S, IH. rewrite (csum_S n (fun k => csum (S n - k) (f k))). replace (S n - n)%nat with 1%nat by lia. rewrite (csum_ext' n (fun k => csum (S n - k) (f k)) (fun k => cadd (csum (n - k) (f k)) (f k (n - k)%nat))) by (intros k K; replace (S n - k)%nat with (S (n - k)) by lia; rewrite csum_S; reflexivity).
  rewrite csum_add. rewrite (csum_S n (fun k => f k (n - k)%nat)), Nat.sub_diag, csum_S, csum_O. ring.
Qed.
Lemma cpow_nonzero z n : z <> cre 0 -> cpow z n <> cre 0.
Proof. intros H. induction n as [|n IH]; [cbn; intros E; apply (f_equal fst) in E; cbn in E; lra|]. rewrite cpow_S. intros E. destruct (cmul_integral _ _ E); contradiction. Qed.
(** a polynomial at z from the powers of 1/z *)
Lemma poly_inverse p z w : cmul z w = cre 1 -> p <> [] -> cmul (cpow z (length p - 1)) (csum (length p) (fun k => cmul (cre (nth k p 0)) (cpow w k))) = polynomial p z.
Proof.
  intros W P. unfold polynomial. rewrite <- csum_mul. apply csum_ext'. intros k K. rewrite cscal_mul. replace (length p - 1)%nat with ((length p - 1 - k) + k)%nat at 1 by lia. rewrite cpow_add. replace (cmul (cmul (cpow z (length p - 1 - k)) (cpow z k)) (cmul (cre (nth k p 0)) (cpow w k))) with (cmul (cmul (cre (nth k p 0)) (cpow z (length p - 1 - k))) (cmul (cpow z k) (cpow w k))) by ring. rewrite <- cpow_mul, W, cpow_one. ring.
Qed.
Lemma window b a h N n w : (forall i, (i < N)%nat -> cv (sq a) (sq h) i = sq b i) -> csum (length a) (fun k => cmul (cre (sq a k)) (cpow w k)) = cre 0 -> cabs w <= 1 ->
  (length a <= n)%nat -> (length b <= n)%nat -> (n <= N)%nat ->
  cabs (csum (length b) (fun k => cmul (cre (sq b k)) (cpow w k))) <= rsum (length a) (fun k => Rabs (sq a k)) * rsum (length a) (fun j => Rabs (sq h (n - length a + j))).
Proof.
  intros HC A W LA LB LN. set (La := length a) in *. set (T := rsum La (fun j => Rabs (sq h (n - La + j)))).
  assert (E1 : csum n (fun i => cmul (cre (cv (sq a) (sq h) i)) (cpow w i)) = csum (length b) (fun k => cmul (cre (sq b k)) (cpow w k))).
  { rewrite (csum_ext' n _ (fun i => cmul (cre (sq b i)) (cpow w i))) by (intros i I; rewrite HC by lia; reflexivity). replace n with (length b + (n - length b))%nat by lia. rewrite csum_app. rewrite (csum_zero (n - length b)); [ring|]. intros i I. unfold sq. rewrite nth_overflow by lia. ring. }
  assert (E2 : csum n (fun i => cmul (cre (cv (sq a) (sq h) i)) (cpow w i)) = csum n (fun k => cmul (cmul (cre (sq a k)) (cpow w k)) (csum (n - k) (fun m => cmul (cre (sq h m)) (cpow w m))))).
  { rewrite (csum_ext' n (fun k => cmul _ (csum (n - k) _)) (fun k => csum (n - k) (fun m => cmul (cmul (cre (sq a k)) (cpow w k)) (cmul (cre (sq h m)) (cpow w m))))) by (intros; rewrite csum_mul; reflexivity). rewrite <- (triangle n (fun k m => cmul (cmul (cre (sq a k)) (cpow w k)) (cmul (cre (sq h m)) (cpow w m)))).
    apply csum_ext'. intros i I. unfold cv. rewrite <- csum_cre. replace (cmul (csum (S i) (fun k => cre (sq a k * sq h (i - k)))) (cpow w i)) with (cmul (cpow w i) (csum (S i) (fun k => cre (sq a k * sq h (i - k))))) by ring. rewrite <- csum_mul. apply csum_ext'. intros k K. rewrite cre_mul. replace i with (k + (i - k))%nat at 1 by lia. rewrite cpow_add. ring. }
  set (S := csum n (fun m => cmul (cre (sq h m)) (cpow w m))).
  assert (E3 : csum n (fun k => cmul (cmul (cre (sq a k)) (cpow w k)) (csum (n - k) (fun m => cmul (cre (sq h m)) (cpow w m)))) = csum La (fun k => cmul (copp (cmul (cre (sq a k)) (cpow w k))) (csum k (fun j => cmul (cre (sq h (n - k + j))) (cpow w (n - k + j)))))).
  { replace n with (La + (n - La))%nat at 1 by lia. rewrite csum_app. rewrite (csum_zero (n - La)); [|intros i I; unfold sq at 1; rewrite nth_overflow by lia; ring].
    assert (D : forall k, (k < La)%nat -> cmul (cmul (cre (sq a k)) (cpow w k)) (csum (n - k) (fun m => cmul (cre (sq h m)) (cpow w m))) = cadd (cmul S (cmul (cre (sq a k)) (cpow w k))) (cmul (copp (cmul (cre (sq a k)) (cpow w k))) (csum k (fun j => cmul (cre (sq h (n - k + j))) (cpow w (n - k + j)))))).
    { intros k K. assert (SE : S = cadd (csum (n - k) (fun m => cmul (cre (sq h m)) (cpow w m))) (csum k (fun j => cmul (cre (sq h (n - k + j))) (cpow w (n - k + j))))) by (unfold S; replace n with ((n - k) + k)%nat at 1 by lia; apply csum_app). rewrite SE. ring. }
    rewrite (csum_ext' La _ _ D), csum_add, csum_mul, A. ring. }
  rewrite <- E1, E2, E3. rewrite <- (rsum_scal_r La). apply csum_le_abs. intros k K. rewrite cabs_mul. replace (copp (cmul (cre (sq a k)) (cpow w k))) with (cmul (cre (- sq a k)) (cpow w k)) by (apply ceq; unfold cre, cmul, copp; cbn [fst snd]; ring). rewrite cabs_mul, cabs_cre, Rabs_Ropp, cabs_pow.
  assert (P : forall i, cabs w ^ i <= 1) by (intros i; rewrite <- (pow1 i); apply pow_incr; split; [apply cabs_ge0|exact W]).
  assert (PP : forall i, 0 <= cabs w ^ i) by (intros i; apply pow_le, cabs_ge0).
  assert (HT : cabs (csum k (fun j => cmul (cre (sq h (n - k + j))) (cpow w (n - k + j)))) <= T).
  { eapply Rle_trans; [apply (csum_le_abs k _ (fun j => Rabs (sq h (n - k + j))))|].
    - intros j J. rewrite cabs_mul, cabs_cre, cabs_pow. pose proof (P (n - k + j)%nat). pose proof (Rabs_pos (sq h (n - k + j))). nra.
    - unfold T. replace La with ((La - k) + k)%nat at 1 by lia. rewrite rsum_app. assert (0 <= rsum (La - k) (fun j => Rabs (sq h (n - La + j)))) by (apply rsum_pos; intros; apply Rabs_pos). rewrite (rsum_ext k (fun i => Rabs (sq h (n - La + (La - k + i)))) (fun j => Rabs (sq h (n - k + j)))); [lra|]. intros i I. f_equal. f_equal. lia. }
  pose proof (Rabs_pos (sq a k)). pose proof (P k). pose proof (PP k). assert (0 <= T) by (apply rsum_pos; intros; apply Rabs_pos). pose proof (cabs_ge0 (csum k (fun j => cmul (cre (sq h (n - k + j))) (cpow w (n - k + j))))).
  apply Rmult_le_compat; [apply Rmult_le_pos; assumption|assumption| |exact HT]. rewrite <- (Rmult_1_r (Rabs (sq a k))) at 2. apply Rmult_le_compat_l; assumption.
Qed.
Lemma windows h La L J : (La <= L)%nat -> rsum J (fun j => rsum La (fun i => Rabs (sq h (S j * L - La + i)))) <= rsum (J * L) (fun k => Rabs (sq h k)).
Proof.
  intros H. induction J as [|J IH]; [cbn; lra|]. cbn [rsum]. replace (S J * L)%nat with (J * L + L)%nat by lia. rewrite rsum_app. apply Rplus_le_compat; [exact IH|]. pose proof (rsum_app (L - La) La (fun i => Rabs (sq h (J * L + i)))) as RA. replace (L - La + La)%nat with L in RA by lia. rewrite RA. assert (0 <= rsum (L - La) (fun i => Rabs (sq h (J * L + i)))) by (apply rsum_pos; intros; apply Rabs_pos). rewrite (rsum_ext La (fun i => Rabs (sq h (J * L + (L - La + i)))) (fun i => Rabs (sq h (J * L + L - La + i)))); [lra|]. intros i I. f_equal. f_equal. lia.
Qed.
Lemma f_pole_inside : forall eig b a p, solves_for eig a -> nth 0 a 0 <> 0 -> b <> [] -> stable b a -> In p (zp_poles (zeropole eig b a true)) -> polynomial b p <> (0, 0) -> cabs p < 1.
Proof.
  intros eig b a p S A0 B0 [K BK] IP PB. cbn [zeropole zp_poles] in IP. destruct (Rlt_dec (cabs p) 1) as [H|H]; [exact H|exfalso]. assert (H1 : 1 <= cabs p) by lra. clear H.
  assert (PN : p <> cre 0) by (intros ->; rewrite cabs_cre, Rabs_R0 in H1; lra). set (w := cinv p). pose proof (cinv_l p PN) as W. fold w in W. assert (W1 : cabs w <= 1). { apply (f_equal cabs) in W. rewrite cabs_mul, cabs_cre, Rabs_R1 in W. pose proof (cabs_ge0 w). nra. }
  assert (AN : a <> []) by (intros ->; cbn in A0; lra). assert (PA : polynomial a p = cre 0). { apply (roots_zero eig a p); [|exact S|exact IP]. exists (nth 0 a 0). split; [apply nth_In; destruct a; [congruence|cbn; lia]|exact A0]. }
  assert (AZ : csum (length a) (fun k => cmul (cre (sq a k)) (cpow w k)) = cre 0). { rewrite <- (poly_inverse a p w W AN) in PA. destruct (cmul_integral _ _ PA) as [Z|Z]; [destruct (cpow_nonzero p _ PN Z)|exact Z]. }
  set (Bw := csum (length b) (fun k => cmul (cre (sq b k)) (cpow w k))). assert (BZ : 0 < cabs Bw). { destruct (Req_dec (cabs Bw) 0) as [Z|Z]; [|pose proof (cabs_ge0 Bw); lra]. exfalso. apply PB. rewrite <- (poly_inverse b p w W B0). apply cabs_0 in Z. unfold Bw, sq in Z. rewrite Z. change (0, 0) with (cre 0). ring. }
  set (L := Nat.max (length a) (length b)). assert (L1 : (1 <= L)%nat) by (destruct a; [congruence|]; unfold L; cbn [length]; lia). set (Sa := rsum (length a) (fun k => Rabs (sq a k))). assert (SA : 0 <= Sa) by (apply rsum_pos; intros; apply Rabs_pos).
  assert (Q : forall J, (1 <= J)%nat -> INR J * cabs Bw <= Sa * K).
  { intros J J1. assert (JL : (1 <= J * L)%nat) by nia. destruct (lfilter_ok b a (impulse (J * L)) A0 B0) as (h & E & _); [left; discriminate|]. destruct (impulse_cv b a (J * L) h JL E) as [LH HC].
    apply Rle_trans with (Sa * rsum (J * L) (fun k => Rabs (sq h k))); [|apply Rmult_le_compat_l; [exact SA|apply (summable b a K (J * L) h BK JL E)]]. apply Rle_trans with (Sa * rsum J (fun j => rsum (length a) (fun i => Rabs (sq h (Datatypes.S j * L - length a + i))))); [|apply Rmult_le_compat_l; [exact SA|apply windows; unfold L; lia]].
    rewrite <- rsum_scal. replace (INR J * cabs Bw) with (rsum J (fun _ => cabs Bw)) by (clear; induction J as [|J IH]; [cbn; ring|]; cbn [rsum]; rewrite IH, S_INR; ring). apply rsum_le'. intros j Hj. apply (window b a h (J * L)); try assumption; unfold L in *; nia. }
  set (v := Sa * K / cabs Bw) in *. set (J := Z.to_nat (up v)). assert (HJ : v < INR J) by (pose proof (archimed v) as [U _]; unfold J; rewrite INR_IZR_INZ; destruct (Z.le_gt_cases 0 (up v)) as [G|G]; [rewrite Z2Nat.id by exact G; lra|replace (Z.to_nat (up v)) with 0%nat by lia; apply IZR_lt in G; cbn; lra]).  pose proof (Q (Datatypes.S J) ltac:(lia)) as QJ. rewrite S_INR in QJ. assert (Sa * K < INR J * cabs Bw). { apply (Rmult_lt_compat_r (cabs Bw)) in HJ; [|exact BZ]. unfold v, Rdiv in HJ. rewrite Rmult_assoc, Rinv_l, Rmult_1_r in HJ by lra. exact HJ. } lra.
Qed.
(** nothing drawn twice: stable exactly if the crosses are inside *)
Lemma f_stable_iff : forall eig b a, solves_for eig a -> nth 0 a 0 <> 0 -> b <> [] -> (forall p, In p (zp_poles (zeropole eig b a true)) -> polynomial b p <> (0, 0)) ->
  (stable b a <-> inside 1 (zp_poles (zeropole eig b a true))).
Proof. intros eig b a S A B C. split; [|apply f_stable; exact S]. intros H p I. apply (f_pole_inside eig b a p S A B H I). apply C. exact I. Qed.
