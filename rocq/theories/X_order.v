(** Final forms and examples: the order that calculate_grid_weights finds. *)
From Coq Require Import Lra Lia ClassicalEpsilon.
From Verif Require Import Base BaseFacts M_utils M_sig P_sig M_sph0 M_sph M_grids S_utils S_sph S_grids S_svd P_sph7 P_sph11 P_grids2 P_grids3 P_grids4 P_svd3 X_sph S_order P_order.
Open Scope R_scope.

Lemma f_order pinv cond azi zen : exact_pinv pinv -> cond_contract cond -> length zen = length azi -> zeniths zen -> (length azi < 100 ^ 2)%nat ->
  exists N, (forall k, (1 <= k <= N)%nat -> supports azi zen k) /\ ~ supports azi zen (N + 1) /\
  (N = 0%nat -> calculate_grid_weights pinv cond azi zen None = Err AssertionError) /\
  ((1 <= N)%nat -> ((N + 1) ^ 2 <= length azi)%nat /\ exists w, calculate_grid_weights pinv cond azi zen None = Ok w /\ exact_for sh_real N azi zen w /\
     forall w', exact_for sh_real N azi zen w' -> lsum (map (fun x => x * x) w) <= lsum (map (fun x => x * x) w')).
Proof. intros A B C D E. exact (order_result pinv cond azi zen A B C D E). Qed.
Lemma f_order_grids pinv cond azi zen N w0 a b : exact_pinv pinv -> cond_contract cond -> exact_for sh_real (2 * N) azi zen w0 -> (1 <= N)%nat ->
  0 < a -> b <= 4 * a -> (forall x, In x w0 -> a <= x <= b) -> (length azi < 100 ^ 2)%nat ->
  exists N' w, (N <= N')%nat /\ calculate_grid_weights pinv cond azi zen None = Ok w /\ exact_for sh_real N' azi zen w.
Proof.
  intros HP HC EX HN HA HB HW HQ. pose proof EX as (L1 & _ & Z & _). destruct (order_result pinv cond azi zen HP HC L1 Z HQ) as (N' & S & NS & _ & R).
  assert (LE : (N <= N')%nat). { destruct (Nat.le_gt_cases N N') as [H|H]; [exact H|]. exfalso. apply NS. apply (quad_supports N azi zen w0 a b); auto. lia. }
  destruct (R ltac:(lia)) as (_ & w & E & EW & _). exists N', w. auto.
Qed.
Lemma f_order_few pinv cond azi zen : exact_pinv pinv -> cond_contract cond -> length zen = length azi -> zeniths zen -> (length azi < 4)%nat ->
  calculate_grid_weights pinv cond azi zen None = Err AssertionError.
Proof.
  intros HP HC L Z H. destruct (order_result pinv cond azi zen HP HC L Z) as (N & _ & _ & E0 & E1).
  - apply Nat.lt_le_trans with (2 ^ 2)%nat; [exact H|]. apply Nat.pow_le_mono_l. lia.
  - destruct N as [|N]; [apply E0; reflexivity|]. destruct (E1 ltac:(lia)) as (LE & _). exfalso. assert (2 ^ 2 <= (S N + 1) ^ 2)%nat by (apply Nat.pow_le_mono_l; lia). change (2 ^ 2)%nat with 4%nat in *. lia.
Qed.
Lemma f_order_type pinv cond azi zen w0 a b : exact_pinv pinv -> cond_contract cond -> exact_for sh_real (2 * 99) azi zen w0 ->
  0 < a -> b <= 4 * a -> (forall x, In x w0 -> a <= x <= b) -> calculate_grid_weights pinv cond azi zen None = Err TypeError.
Proof.
  intros HP HC EX HA HB HW. pose proof EX as (L1 & _). apply too_good; auto. intros k Hk. apply (quad_supports 99 azi zen w0 a b); auto.
Qed.

(** ** repeated points even out the weights *)
Lemma floor_nat r : 1 <= r -> exists m, (1 <= m)%nat /\ INR m <= r < INR m + 1.
Proof.
  intros H. destruct (archimed r) as (A & B). exists (Z.to_nat (up r - 1)). assert (1 <= up r - 1)%Z.
  { assert (1 < up r)%Z; [|lia]. apply lt_IZR. lra. }
  split; [lia|]. rewrite INR_IZR_INZ, Z2Nat.id by lia. rewrite minus_IZR. lra.
Qed.
Local Notation node := (R * R * R)%type.
Definition total (F : R -> R -> R) (l : list node) : R := lsum (map (fun p => snd p * F (fst (fst p)) (snd (fst p))) l).
Lemma total_app F l l' : total F (l ++ l') = total F l + total F l'.
Proof. unfold total. rewrite map_app, lsum_app. reflexivity. Qed.
Lemma total_repeat F p m : total F (repeat p m) = INR m * (snd p * F (fst (fst p)) (snd (fst p))).
Proof. induction m as [|m IH]; [cbn; ring|]. change (repeat p (S m)) with ([p] ++ repeat p m). rewrite total_app, IH, S_INR. unfold total. cbn. ring. Qed.
Lemma even_out d l : 0 < d -> (forall p, In p l -> d <= snd p) ->
  exists l', (forall p, In p l' -> d <= snd p <= 2 * d) /\ (forall p, In p l' -> exists q, In q l /\ fst p = fst q) /\ forall F, total F l' = total F l.
Proof.
  intros D. induction l as [|[x w] l IH]; intros H; [exists []; split; [intros p []|]; split; [intros p []|reflexivity]|].
  destruct IH as (l' & A & B & C); [intros p Hp; apply H; right; exact Hp|]. assert (Hw : d <= w) by (apply (H (x, w)); left; reflexivity).
  destruct (floor_nat (w / d)) as (m & M1 & M2 & M3).
  { apply Rmult_le_reg_r with d; [exact D|]. unfold Rdiv. rewrite Rmult_assoc, Rinv_l by lra. lra. }
  assert (I1 : 1 <= INR m) by (apply (le_INR 1); exact M1).
  assert (N1 : INR m * d <= w) by (apply Rmult_le_compat_r with (r := d) in M2; [|lra]; unfold Rdiv in M2; rewrite Rmult_assoc, Rinv_l in M2 by lra; lra).
  assert (N2 : w < (INR m + 1) * d) by (apply Rmult_lt_compat_r with (r := d) in M3; [|lra]; unfold Rdiv in M3; rewrite Rmult_assoc, Rinv_l in M3 by lra; lra).
  exists (repeat (x, w / INR m) m ++ l')%list. split; [|split].
  - intros p Hp. apply in_app_or in Hp. destruct Hp as [Hp|Hp]; [|apply A; exact Hp]. apply repeat_spec in Hp. subst p. cbn [snd].
    assert (E : w / INR m * INR m = w) by (field; lra). split; apply Rmult_le_reg_r with (INR m); try lra; rewrite E; nra.
  - intros p Hp. apply in_app_or in Hp. destruct Hp as [Hp|Hp].
    + apply repeat_spec in Hp. subst p. exists (x, w). split; [left; reflexivity|reflexivity].
    + destruct (B p Hp) as (q & Q1 & Q2). exists q. split; [right; exact Q1|exact Q2].
  - intros F. rewrite total_app, total_repeat, C. unfold total. cbn [map lsum fst snd]. cbn. field. lra.
Qed.
Lemma total_rsum F (l : list node) : total F l = rsum (length (map (fun p => fst (fst p)) l)) (fun j => nth j (map snd l) 0 * F (nth j (map (fun p => fst (fst p)) l) 0) (nth j (map (fun p => snd (fst p)) l) 0)).
Proof.
  induction l as [|p l IH]; [reflexivity|]. cbn [map length]. rewrite rsum_shift. cbn [nth]. rewrite <- IH. reflexivity.
Qed.
Definition n_azi (l : list node) := map (fun p => fst (fst p)) l.
Definition n_zen (l : list node) := map (fun p => snd (fst p)) l.
Definition n_w (l : list node) := map (fun p : node => snd p) l.
Lemma nodes (a z w : list R) : length z = length a -> length w = length a -> exists l : list node, n_azi l = a /\ n_zen l = z /\ n_w l = w.
Proof.
  revert z w. induction a as [|x a IH]; intros [|y z] [|v w]; cbn [length]; intros L1 L2; try discriminate; [exists []; auto|].
  destruct (IH z w) as (l & <- & <- & <-); [lia|lia|]. exists ((x, y, v) :: l). auto.
Qed.
Lemma total_one l : total (fun _ _ => 1) l = lsum (n_w l).
Proof. unfold total, n_w. f_equal. apply map_ext. intros p. ring. Qed.
Lemma exact_nodes t l : exact_for sh_real t (n_azi l) (n_zen l) (n_w l) <-> zeniths (n_zen l) /\ total (fun _ _ => 1) l = 4 * PI /\ forall n m, (1 <= n <= t)%nat -> degree n m -> total (sh_real n m) l = 0.
Proof.
  rewrite total_one. unfold exact_for. split.
  - intros (_ & _ & Z & S & H). split; [exact Z|]. split; [exact S|]. intros n m Hn Hm. rewrite total_rsum. apply H; auto.
  - intros (Z & S & H). split; [unfold n_zen, n_azi; rewrite !map_length; reflexivity|]. split; [unfold n_w, n_azi; rewrite !map_length; reflexivity|]. split; [exact Z|]. split; [exact S|].
    intros n m Hn Hm. pose proof (H n m Hn Hm) as T. rewrite total_rsum in T. exact T.
Qed.
Lemma least_pos (w : list R) : (forall x, In x w -> 0 < x) -> exists d, 0 < d /\ forall x, In x w -> d <= x.
Proof.
  induction w as [|x w IH]; intros H; [exists 1; split; [lra|intros x []]|]. destruct IH as (d & D & E); [intros y Hy; apply H; right; exact Hy|].
  assert (X : 0 < x) by (apply H; left; reflexivity). exists (Rmin d x). split; [apply Rmin_glb_lt; auto|].
  intros y [<-|Hy]; [apply Rmin_r|eapply Rle_trans; [apply Rmin_l|apply E; exact Hy]].
Qed.
Lemma even_grid n : exists azi zen w d, exact_for sh_real (2 * n + 1) azi zen w /\ 0 < d /\ forall x, In x w -> d <= x <= 2 * d.
Proof.
  destruct (equal_angle n) as [[azi zen] w] eqn:E. destruct (equal_angle_exact n azi zen w E) as (L & X). pose proof X as (L1 & L2 & _).
  destruct (least_pos w) as (d & D & Hd).
  { intros x Hx. destruct (In_nth w x 0 Hx) as (k & Hk & <-). set (M := (2 * n + 2)%nat) in *. assert (M0 : M <> 0%nat) by (unfold M; lia).
    pose proof (Nat.div_mod k M M0) as DM. assert (B : (k mod M < M)%nat) by (apply Nat.mod_upper_bound; exact M0).
    assert (Q : (k / M < M)%nat) by (apply Nat.div_lt_upper_bound; [exact M0|rewrite <- L, <- L2; exact Hk]).
    rewrite DM, (Nat.mul_comm M). apply (ea_weights n azi zen w E (k / M) (k mod M) Q B). }
  destruct (nodes azi zen w L1 L2) as (l & <- & <- & <-).
  destruct (even_out d l D) as (l' & A & B & T).
  { intros p Hp. apply Hd. unfold n_w. apply (in_map (fun p : node => snd p)) in Hp. exact Hp. }
  apply exact_nodes in X. destruct X as (Z & S & H). exists (n_azi l'), (n_zen l'), (n_w l'), d. split; [|split; [exact D|]].
  - apply exact_nodes. split; [|split].
    + intros z Hz. unfold n_zen in Hz. apply in_map_iff in Hz. destruct Hz as (p & <- & Hp). destruct (B p Hp) as (q & Hq & ->). apply Z. unfold n_zen. apply (in_map (fun p : node => snd (fst p))) in Hq. exact Hq.
    + rewrite T. exact S.
    + intros k m Hk Hm. rewrite T. apply H; auto.
  - intros x Hx. unfold n_w in Hx. apply in_map_iff in Hx. destruct Hx as (p & <- & Hp). apply A. exact Hp.
Qed.
Lemma exact_mono t t' azi zen w : (t <= t')%nat -> exact_for sh_real t' azi zen w -> exact_for sh_real t azi zen w.
Proof. intros H (A & B & C & D & E). repeat (split; [assumption|]). intros n m Hn. apply E. lia. Qed.
Lemma f_order_refuted : exists azi zen, length zen = length azi /\ zeniths zen /\
  forall pinv cond, exact_pinv pinv -> cond_contract cond -> calculate_grid_weights pinv cond azi zen None = Err TypeError.
Proof.
  destruct (even_grid 99) as (azi & zen & w & d & X & D & H). pose proof X as (L & _ & Z & _). exists azi, zen. split; [exact L|]. split; [exact Z|].
  intros pinv cond HP HC. apply (f_order_type pinv cond azi zen w d (2 * d) HP HC); [|exact D|lra|exact H]. apply (exact_mono _ (2 * 99 + 1)); [|exact X]. apply Nat.le_add_r.
Qed.

(** ** functions with the contract of the condition number exist *)
Definition frob (n m : nat) (e : nat -> nat -> R) : R := rsum n (fun i => rsum m (fun j => e i j * e i j)).
Lemma frob_bound n m e x : sumsq n (fun i => rsum m (fun j => e i j * x j)) <= frob n m e * sumsq m x.
Proof.
  unfold sumsq at 1, frob. rewrite Rmult_comm, <- rsum_scal. apply rsum_le. intros i _. pose proof (rsum_cauchy_schwarz m (fun j => e i j) x) as C. unfold Rsqr in C. fold (sumsq m x) in C. lra.
Qed.
Lemma regular_bounded A : regular A -> exists K, amplifies_within A K.
Proof.
  intros R. destruct (penrose_exists A) as (P & HP). destruct (regular_left A P R HP) as (X & HX).
  set (f := frob (nr A) (nc A) (ent A)). set (g := frob (nc A) (nr A) (ent X)).
  assert (F0 : 0 <= f) by (apply rsum_nonneg; intros; apply rsum_sq_nonneg). assert (G0 : 0 <= g) by (apply rsum_nonneg; intros; apply rsum_sq_nonneg).
  exists (sqrt (f * g)). split; [apply sqrt_pos|]. intros x y. replace (sqrt (f * g) ^ 2) with (f * g) by (rewrite <- Rsqr_pow2, Rsqr_sqrt; [reflexivity|apply Rmult_le_pos; auto]).
  assert (B1 : sumsq (nr A) (act A x) <= f * sumsq (nc A) x) by (apply frob_bound).
  assert (B2 : sumsq (nc A) y <= g * sumsq (nr A) (act A y)).
  { eapply Rle_trans; [|apply frob_bound]. right. unfold sumsq. apply rsum_ext. intros a Ha.
    assert (E : y a = rsum (nr A) (fun q => ent X a q * act A y q)); [|rewrite <- E; reflexivity].
    rewrite <- (rsum_delta_l (nc A) a y Ha) at 1. rewrite (rsum_ext _ _ (fun b => rsum (nr A) (fun q => ent X a q * (ent A q b * y b)))).
    - rewrite rsum_swap. apply rsum_ext. intros q _. rewrite rsum_scal. reflexivity.
    - intros b Hb. rewrite <- (HX a b Ha Hb). unfold mprod. rewrite Rmult_comm, <- rsum_scal. apply rsum_ext. intros; ring. }
  pose proof (sumsq_pos (nr A) (act A x)). pose proof (sumsq_pos (nc A) y). pose proof (sumsq_pos (nc A) x). pose proof (sumsq_pos (nr A) (act A y)).
  apply Rle_trans with (f * sumsq (nc A) x * (g * sumsq (nr A) (act A y))); [|right; ring]. apply Rmult_le_compat; auto.
Qed.
Lemma least_amplification A K0 : amplifies_within A K0 -> exists K, amplifies_within A K /\ forall K', amplifies_within A K' -> K <= K'.
Proof.
  intros H0. destruct (completeness (fun k => amplifies_within A (- k))) as (m & U & L).
  - exists 0. intros k (P & _). lra.
  - exists (- K0). rewrite Ropp_involutive. exact H0.
  - assert (M0 : m <= 0) by (apply L; intros k (P & _); lra).
    assert (M1 : forall K', amplifies_within A K' -> - m <= K'). { intros K' H. assert (- K' <= m); [|lra]. apply U. rewrite Ropp_involutive. exact H. }
    exists (- m). split; [|exact M1]. split; [lra|]. intros x y. apply Rnot_lt_le. intros C.
    set (l := sumsq (nr A) (act A x) * sumsq (nc A) y) in *. set (d := sumsq (nr A) (act A y) * sumsq (nc A) x) in *.
    assert (D0 : 0 <= d) by (apply Rmult_le_pos; apply sumsq_pos).
    destruct (Req_dec d 0) as [Z|NZ].
    + destruct H0 as (_ & H0). specialize (H0 x y). fold l d in H0. rewrite Z in *. lra.
    + assert (D : 0 < d) by lra. assert (LP : 0 <= l) by (apply Rmult_le_pos; apply sumsq_pos). assert (LD : 0 <= l / d) by (apply Rmult_le_pos; [exact LP|left; apply Rinv_0_lt_compat; exact D]).
      set (r := sqrt (l / d)). assert (R2 : r ^ 2 * d = l) by (unfold r; rewrite <- Rsqr_pow2, Rsqr_sqrt by exact LD; field; lra).
      assert (R0 : 0 <= r) by apply sqrt_pos. assert (RM : - m < r). { apply Rnot_le_lt. intros G. assert (r ^ 2 <= (- m) ^ 2) by (apply pow_incr; lra). nra. }
      assert (UB : m <= - r); [|lra]. apply L. intros k Hk. apply Rnot_lt_le. intros G. destruct Hk as (P & Hk). specialize (Hk x y). fold l d in Hk.
      assert (S : (- k) ^ 2 < r ^ 2) by (rewrite <- !Rsqr_pow2; apply Rsqr_incrst_1; lra). nra.
Qed.
Theorem cond_exists : exists cond, cond_contract cond.
Proof.
  assert (X : forall A, exists c, (regular A -> amplifies_within A c /\ forall K, amplifies_within A K -> c <= K) /\ (~ regular A -> 200 < c)).
  { intros A. destruct (classic (regular A)) as [R|R].
    - destruct (regular_bounded A R) as (K0 & H0). destruct (least_amplification A K0 H0) as (K & HK). exists K. split; [intros _; exact HK|intros N; contradiction].
    - exists 201. split; [intros N; contradiction|intros _; lra]. }
  exists (fun A => proj1_sig (constructive_indefinite_description _ (X A))). intros A _ _. destruct (constructive_indefinite_description _ (X A)) as [c H]. exact H.
Qed.
Lemma ex_order : exists pinv cond azi zen w, exact_pinv pinv /\ cond_contract cond /\ exact_for sh_real (2 * 1) azi zen w /\ (forall x, In x w -> 4 * PI / 6 <= x <= 4 * PI / 6) /\ length azi = 6%nat /\
  exists w' N, (1 <= N)%nat /\ calculate_grid_weights pinv cond azi zen None = Ok w' /\ exact_for sh_real N azi zen w'.
Proof.
  destruct pinv_function as (pinv & HP). destruct cond_exists as (cond & HC). exists pinv, cond, octa_azi, octa_zen, (equal_weights 6).
  assert (G : exact_for sh_real (2 * 1) octa_azi octa_zen (equal_weights 6)) by exact octa_grid.
  assert (W : forall x, In x (equal_weights 6) -> 4 * PI / 6 <= x <= 4 * PI / 6).
  { intros x Hx. apply repeat_spec in Hx. subst x. replace (INR 6) with 6 by (simpl; lra). lra. }
  split; [exact HP|]. split; [exact HC|]. split; [exact G|]. split; [exact W|]. split; [reflexivity|]. pose proof PI_RGT_0.
  destruct (f_order_grids pinv cond octa_azi octa_zen 1 (equal_weights 6) (4 * PI / 6) (4 * PI / 6) HP HC G) as (N & w & A & B & C); [lia|lra|lra|exact W| |exists w, N; auto].
  change (length octa_azi) with 6%nat. apply Nat.lt_le_trans with (3 ^ 2)%nat; [cbn; lia|apply Nat.pow_le_mono_l; lia].
Qed.
