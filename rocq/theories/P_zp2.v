(** Poles bound the impulse response. *)
From Coq Require Import Lra Lia Ring.
From Verif Require Import Base BaseFacts M_utils M_sig M_sph0 M_sph M_parsa3 M_process3 S_process3 M_zp S_zp P_lfilter P_proc1 P_cplx P_zp1.
Open Scope R_scope.

Lemma coeffs c t l : length l = length t -> (forall z, polynomial (c :: t) z = cscal c (product l z)) -> forall k, (k <= length t)%nat -> cre (nth k (c :: t) 0) = cmul (cre c) (pe l k).
Proof.
  intros L H. set (m := length t) in *. set (a := c :: t) in *. assert (LA : length a = S m) by reflexivity.
  assert (E : forall x : R, csum (S m) (fun j => cmul (csub (cre (nth (m - j) a 0)) (cmul (cre c) (pe l (m - j)))) (cre (x ^ j))) = cre 0).
  { intros x. specialize (H (cre x)). unfold polynomial in H. rewrite LA, cscal_mul, product_pe, L in H. rewrite csum_rev in H. rewrite (csum_rev (S m) (fun k => cmul (pe l k) _)), <- csum_mul in H.
    rewrite (csum_ext' (S m) _ (fun j => cadd (cscal (nth (S m - 1 - j) a 0) (cpow (cre x) (S m - 1 - (S m - 1 - j)))) (cmul (copp (cre 1)) (cmul (cre c) (cmul (pe l (S m - 1 - j)) (cpow (cre x) (m - (S m - 1 - j)))))))).
    - rewrite csum_add, csum_mul, H. ring.
    - intros j J. replace (S m - 1 - j)%nat with (m - j)%nat by lia. replace (S m - 1 - (m - j))%nat with j by lia. replace (m - (m - j))%nat with j by lia. rewrite cscal_mul, cpow_cre. ring. }
  assert (Z : forall j, (j < S m)%nat -> csub (cre (nth (m - j) a 0)) (cmul (cre c) (pe l (m - j))) = cre 0).
  { intros j J. apply ceq.
    - apply (rpoly_zero (S m) (fun j => fst (csub (cre (nth (m - j) a 0)) (cmul (cre c) (pe l (m - j)))))); [|exact J]. intros x. specialize (E x). apply (f_equal fst) in E. cbn [fst cre] in E. etransitivity; [|exact E]. apply rsum_ext. intros i I. unfold cmul at 2. cbn [fst snd cre]. ring.
    - apply (rpoly_zero (S m) (fun j => snd (csub (cre (nth (m - j) a 0)) (cmul (cre c) (pe l (m - j)))))); [|exact J]. intros x. specialize (E x). apply (f_equal snd) in E. cbn [snd cre] in E. etransitivity; [|exact E]. apply rsum_ext. intros i I. unfold cmul at 2. cbn [fst snd cre]. ring. }
  intros k K. specialize (Z (m - k)%nat ltac:(lia)). replace (m - (m - k))%nat with k in Z by lia. set (u := cre (nth k a 0)) in *. set (v := cmul (cre c) (pe l k)) in *. replace u with (cadd (csub u v) v) by ring. rewrite Z. ring.
Qed.

Definition ccv (f g : nat -> C2) (n : nat) : C2 := csum (S n) (fun k => cmul (f k) (g (n - k)%nat)).
Fixpoint geo (r : C2) (v : nat -> C2) (n : nat) : C2 := match n with O => v O | S m => cadd (v (S m)) (cmul r (geo r v m)) end.
Fixpoint casc (l : list C2) (u : nat -> C2) : nat -> C2 := match l with [] => u | r :: t => geo r (casc t u) end.
Lemma geo_diff r v n : v n = csub (geo r v n) (cmul r (before (geo r v) n)).
Proof. destruct n as [|n]; cbn [geo before]; ring. Qed.
Lemma ccv_geo r l v n : ccv (pe (r :: l)) (geo r v) n = ccv (pe l) v n.
Proof.
  unfold ccv. set (g := geo r v). rewrite (csum_ext' (S n) _ (fun k => cadd (cmul (pe l k) (g (n - k)%nat)) (cmul (copp r) (cmul (before (pe l) k) (g (n - k)%nat))))) by (intros; cbn [pe]; ring). rewrite csum_add, csum_mul, (csum_shift n (fun k => cmul (before (pe l) k) (g (n - k)%nat))). cbn [before].
  rewrite (csum_ext' (S n) (fun k => cmul (pe l k) (v (n - k)%nat)) (fun k => cadd (cmul (pe l k) (g (n - k)%nat)) (cmul (copp r) (cmul (pe l k) (before g (n - k)%nat))))) by (intros k K; rewrite (geo_diff r v (n - k)); fold g; ring). rewrite csum_add, csum_mul, (csum_S n (fun k => cmul (pe l k) (before g (n - k)%nat))). rewrite Nat.sub_diag. cbn [before].
  rewrite (csum_ext' n (fun k => cmul (pe l k) (before g (n - k)%nat)) (fun k => cmul (pe l k) (g (n - S k)%nat))) by (intros k K; replace (n - k)%nat with (S (n - S k)) by lia; reflexivity). ring.
Qed.
Lemma ccv_casc l u n : ccv (pe l) (casc l u) n = u n.
Proof.
  induction l as [|r l IH]; [|cbn [casc]; rewrite ccv_geo; exact IH]. unfold ccv. rewrite csum_shift. cbn [pe casc]. rewrite csum_zero by (intros; ring). rewrite Nat.sub_0_r. ring.
Qed.
Lemma ccv_det f g g' n : f 0%nat = cre 1 -> (forall k, (k <= n)%nat -> ccv f g k = ccv f g' k) -> forall k, (k <= n)%nat -> g k = g' k.
Proof.
  intros F H k. induction k as [k IH] using lt_wf_ind. intros K. pose proof (H k K) as E. unfold ccv in E. rewrite !csum_shift in E. rewrite !Nat.sub_0_r, F in E.
  rewrite (csum_ext' k (fun i => cmul (f (S i)) (g (k - S i)%nat)) (fun i => cmul (f (S i)) (g' (k - S i)%nat))) in E by (intros i I; rewrite IH by lia; reflexivity). set (s := csum k _) in E.
  replace (g k) with (csub (cadd (cmul (cre 1) (g k)) s) s) by ring. rewrite E. ring.
Qed.
(** ** bounds *)
Lemma geo_bound r v M rho : 0 < rho -> cabs r < rho -> 0 <= M -> (forall n, cabs (v n) <= M * rho ^ n) -> forall n, cabs (geo r v n) <= M * (rho / (rho - cabs r)) * rho ^ n.
Proof.
  intros P R M0 V. set (q := rho / (rho - cabs r)). pose proof (cabs_ge0 r) as R0. assert (Q1 : 1 <= q) by (unfold q; apply (Rmult_le_reg_r (rho - cabs r)); [lra|]; unfold Rdiv; rewrite Rmult_assoc, Rinv_l by lra; lra). assert (QE : rho + cabs r * q = rho * q) by (unfold q; field; lra).
  induction n as [|n IH]; cbn [geo pow].
  - pose proof (V 0%nat) as V0. cbn [pow] in V0. nra.
  - eapply Rle_trans; [apply cabs_tri|]. rewrite cabs_mul. pose proof (V (S n)) as VS. cbn [pow] in VS. assert (PN : 0 < rho ^ n) by (apply pow_lt; exact P). apply Rle_trans with (M * (rho * rho ^ n) + cabs r * (M * q * rho ^ n)).
    + apply Rplus_le_compat; [exact VS|]. apply Rmult_le_compat_l; assumption.
    + right. replace (M * q * (rho * rho ^ n)) with (M * rho ^ n * (rho * q)) by ring. rewrite <- QE. ring.
Qed.
Lemma casc_bound l rho : 0 < rho -> inside rho l -> exists q, 0 <= q /\ forall u M, 0 <= M -> (forall n, cabs (u n) <= M * rho ^ n) -> forall n, cabs (casc l u n) <= M * q * rho ^ n.
Proof.
  intros P. induction l as [|r l IH]; intros H; [exists 1; split; [lra|]; intros u M M0 U n; cbn [casc]; rewrite Rmult_1_r; apply U|].
  destruct IH as (q & Q0 & Q); [intros p I; apply H; right; exact I|]. pose proof (H r (or_introl eq_refl)) as R. pose proof (cabs_ge0 r). exists (q * (rho / (rho - cabs r))). split; [apply Rmult_le_pos; [exact Q0|]; left; apply Rdiv_lt_0_compat; lra|].
  intros u M M0 U n. cbn [casc]. rewrite <- Rmult_assoc. apply geo_bound; [exact P|exact R|apply Rmult_le_pos; assumption|]. apply Q; assumption.
Qed.
(** the real recursion is the complex one *)
Lemma real_casc c t l (y u : nat -> R) n : c <> 0 -> length l = length t -> (forall z, polynomial (c :: t) z = cscal c (product l z)) ->
  (forall k, (k <= n)%nat -> cv (sq (c :: t)) y k = u k) -> forall k, (k <= n)%nat -> cre (y k) = casc l (fun k => cre (u k / c)) k.
Proof.
  intros C L P H. pose proof (coeffs c t l L P) as A. apply (ccv_det (pe l) (fun k => cre (y k))); [apply pe_0|]. intros k K. rewrite ccv_casc. rewrite <- (H k K). unfold ccv, cv. unfold Rdiv. rewrite <- rsum_scal_r, <- csum_cre. apply csum_ext'. intros i I.
  assert (E : pe l i = cre (sq (c :: t) i / c)).
  { destruct (Nat.le_gt_cases i (length t)) as [G|G]; [|rewrite pe_high by lia; unfold sq; rewrite nth_overflow by (cbn; lia); f_equal; field; exact C]. specialize (A i G). fold (sq (c :: t) i) in A. unfold Rdiv. rewrite cre_mul, A. replace (cmul (cmul (cre c) (pe l i)) (cre (/ c))) with (cmul (cmul (cre c) (cre (/ c))) (pe l i)) by ring. rewrite <- cre_mul, Rinv_r by exact C. ring. }
  rewrite E, <- cre_mul. f_equal. unfold Rdiv. ring.
Qed.
Lemma finite_bound (b : list R) rho : 0 < rho -> exists M, 0 <= M /\ forall n, Rabs (sq b n) <= M * rho ^ n.
Proof.
  intros P. assert (G : forall b : list R, exists M, 0 <= M /\ forall n, Rabs (nth n b 0) <= M * rho ^ n); [|apply G]. clear b. induction b as [|c b IH].
  - exists 0. split; [lra|]. intros n. rewrite nth_overflow by (cbn; lia). rewrite Rabs_R0. lra.
  - destruct IH as (M & M0 & H). exists (Rabs c + M / rho). assert (0 <= M / rho) by (apply Rmult_le_pos; [exact M0|left; apply Rinv_0_lt_compat; exact P]). pose proof (Rabs_pos c). split; [lra|]. intros [|n]; cbn [nth pow]; [lra|]. pose proof (pow_lt rho n P). apply Rle_trans with (M * rho ^ n); [apply H|]. replace ((Rabs c + M / rho) * (rho * rho ^ n)) with (Rabs c * rho * rho ^ n + M * rho ^ n) by (field; lra). assert (0 <= Rabs c * rho * rho ^ n) by (apply Rmult_le_pos; [apply Rmult_le_pos|]; lra). lra.
Qed.
Lemma first_not a : nth 0 a 0 <> 0 -> exists c t, a = c :: t /\ c <> 0.
Proof. destruct a as [|c t]; cbn; intros H; [lra|]. eauto. Qed.
Lemma poles_all eig a : nth 0 a 0 <> 0 -> solves_for eig a -> exists c t, a = c :: t /\ c <> 0 /\ length (np_roots eig a) = length t /\ forall z, polynomial a z = cscal c (product (np_roots eig a) z).
Proof. intros H S. destruct (first_not a H) as (c & t & -> & C). exists c, t. split; [reflexivity|]. split; [exact C|]. apply (roots_all eig 0 c t C S). Qed.
Lemma impulse_rhs b N n : (n < N)%nat -> cv (sq b) (sq (impulse N)) n = sq b n.
Proof.
  intros H. rewrite cv_comm. rewrite (cv_ext (sq (impulse N)) unit0 (sq b) (sq b)) by (intros [|k] K; try reflexivity; unfold sq, impulse; cbn [nth]; apply nth_zeros). apply cv_unit.
Qed.
Lemma length_impulse N : (1 <= N)%nat -> length (impulse N) = N.
Proof. intros H. unfold impulse. cbn [length]. rewrite repeat_length. lia. Qed.
Lemma impulse_cv b a N h : (1 <= N)%nat -> lfilter b a (impulse N) = Ok h -> length h = N /\ forall n, (n < N)%nat -> cv (sq a) (sq h) n = sq b n.
Proof. intros HN E. apply f_lfilter_inv, de_cv in E. rewrite length_impulse in E by exact HN. destruct E as [L E]. split; [exact L|]. intros n I. rewrite E by exact I. apply impulse_rhs. exact I. Qed.
Lemma f_decay : forall eig b a rho, solves_for eig a -> 0 < rho -> inside rho (zp_poles (zeropole eig b a true)) ->
  exists M, 0 <= M /\ forall N h, (1 <= N)%nat -> lfilter b a (impulse N) = Ok h -> forall n, (n < N)%nat -> Rabs (nth n h 0) <= M * rho ^ n.
Proof.
  intros eig b a rho S P I. cbn [zeropole zp_poles] in I. destruct (Req_EM_T (nth 0 a 0) 0) as [Z|Z].
  - exists 0. split; [lra|]. intros N h HN E. destruct (lfilter_inv _ _ _ _ E) as (A & _). contradiction.
  - destruct (poles_all eig a Z S) as (c & t & -> & C & L & R). destruct (casc_bound _ rho P I) as (q & Q0 & Q). destruct (finite_bound b rho P) as (M & M0 & MB). set (l := np_roots eig (c :: t)) in *. exists (M / Rabs c * q). pose proof (Rabs_pos_lt c C) as PC. assert (0 <= M / Rabs c) by (apply Rmult_le_pos; [exact M0|left; apply Rinv_0_lt_compat; exact PC]). split; [apply Rmult_le_pos; assumption|].
    intros N h HN E n Hn. destruct (impulse_cv b (c :: t) N h HN E) as [LH HH]. fold (sq h n). rewrite <- cabs_cre. rewrite (real_casc c t l (sq h) (sq b) n C L R) by (try (intros; apply HH); lia). apply Q; [assumption|]. intros k. rewrite cabs_cre. unfold Rdiv. rewrite Rabs_mult, Rabs_inv. specialize (MB k). pose proof (Rinv_0_lt_compat _ PC). replace (M * / Rabs c * rho ^ k) with (M * rho ^ k * / Rabs c) by ring. apply Rmult_le_compat_r; [lra|exact MB].
Qed.
