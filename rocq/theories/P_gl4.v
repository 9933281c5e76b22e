(** numpy's leggauss and the Gauss grid. *)
From Coq Require Import Lra Lia.
From Verif Require Import Base BaseFacts M_utils M_sig M_sph0 M_sph S_sph S_grids S_parsa M_grids M_lgauss S_lgauss P_sph1 P_sph4 P_sph12 P_grids1 P_grids2 P_grids3 P_gl1 P_gl2 P_gl3.
Open Scope R_scope.
Local Arguments eval_legendre : simpl never.
Local Arguments LD : simpl never.

Lemma zipw_length f u v : length u = length v -> length (zipw f u v) = length u.
Proof. intros E. unfold zipw. rewrite map_length, combine_length, E. apply Nat.min_id. Qed.
Lemma zipw_nth f u v i : length u = length v -> (i < length u)%nat -> nth i (zipw f u v) 0 = f (nth i u 0) (nth i v 0).
Proof.
  intros E Hi. unfold zipw. rewrite (nth_map_in _ _ i 0 (0, 0)) by (rewrite combine_length, E, Nat.min_id; lia). rewrite combine_nth by exact E. reflexivity.
Qed.
Lemma abs_max_ge l y : In y l -> Rabs y <= abs_max l.
Proof.
  induction l as [|a l IH]; intros I; [destruct I|]. unfold abs_max. cbn [map fold_right]. destruct I as [->|I]; [apply Rmax_l|]. eapply Rle_trans; [apply IH; exact I|apply Rmax_r].
Qed.
Lemma list_nth_eq (u v : list R) : length u = length v -> (forall i, (i < length u)%nat -> nth i u 0 = nth i v 0) -> u = v.
Proof. intros. apply (nth_ext u v 0 0); auto. Qed.
Lemma lsum_rsum (l : list R) : lsum l = rsum (length l) (fun i => nth i l 0).
Proof. induction l as [|a l IH]; [reflexivity|]. cbn [length]. rewrite rsum_shift. cbn [nth lsum fold_right]. fold (lsum l). rewrite IH. reflexivity. Qed.

Section Gauss.
Variables (n : nat) (w : list R).
Hypothesis EV : is_eigvalsh (legcompanion (S n)) w.
Let x i := nth i w 0.
Lemma ev_len : length w = S n. Proof. apply (eig_roots (S n) w EV). Qed.
Lemma ev_roots : roots (S n) x. Proof. apply (eig_roots (S n) w EV). Qed.
Lemma ev_zero i : (i < S n)%nat -> eval_legendre (S n) (x i) = 0. Proof. intros H. apply ev_roots. exact H. Qed.
Lemma ev_kern i : (i < S n)%nat -> kern (S n) (x i) (x i) = (INR n + 1) * LD (S n) (x i) * eval_legendre n (x i).
Proof. intros H. rewrite kern_diag, ev_zero by exact H. ring. Qed.
Lemma ev_nz i : (i < S n)%nat -> LD (S n) (x i) <> 0 /\ eval_legendre n (x i) <> 0.
Proof. intros H. pose proof (ev_kern i H) as K. pose proof (kern_pos n (x i)) as P. split; intros E; rewrite E in K; lra. Qed.
Lemma gw_sym i : (i < S n)%nat -> gw n x (n - i) = gw n x i.
Proof.
  intros H. pose proof (roots_sym (S n) x ev_roots i H) as E. replace (S n - 1 - i)%nat with (n - i)%nat in E by lia.
  unfold gw. rewrite E. f_equal. unfold kern. apply rsum_ext. intros j _. rewrite !L_neg.
  replace ((2 * INR j + 1) * ((-1) ^ j * eval_legendre j (x i)) * ((-1) ^ j * eval_legendre j (x i))) with ((-1) ^ j * (-1) ^ j * ((2 * INR j + 1) * eval_legendre j (x i) * eval_legendre j (x i))) by ring.
  rewrite <- Rpow_mult_distr. replace (-1 * -1) with 1 by ring. rewrite pow1. ring.
Qed.
Lemma leggauss_value ev : ev (legcompanion (S n)) = w -> leggauss ev (S n) = Ok (w, map (gw n x) (seq 0 (S n))).
Proof.
  intros E. unfold leggauss. cbn [Nat.eqb]. rewrite E. pose proof ev_len as LW.
  set (c := repeat 0 (S n) ++ [1]).
  assert (DY : map (legval c) w = map (fun _ => 0) w).
  { apply map_ext_in. intros y I. rewrite legval_ok. unfold c. rewrite series_unit. destruct (In_nth w y 0 I) as (i & Hi & <-). rewrite LW in Hi. apply ev_zero. exact Hi. }
  assert (DF : map (legval (legder c)) w = map (LD (S n)) w) by (apply map_ext; intros y; rewrite legder_ok; apply series_unit).
  rewrite DY, DF.
  assert (X1 : zipw Rminus w (zipw Rdiv (map (fun _ => 0) w) (map (LD (S n)) w)) = w).
  { assert (L1 : length (zipw Rdiv (map (fun _ => 0) w) (map (LD (S n)) w)) = length w) by (rewrite zipw_length; rewrite !map_length; reflexivity).
    apply list_nth_eq; [apply zipw_length; symmetry; exact L1|]. intros i Hi. rewrite zipw_length in Hi by (symmetry; exact L1).
    rewrite zipw_nth by (auto; symmetry; exact L1). rewrite zipw_nth by (rewrite !map_length; auto). rewrite (nth_map_in (fun _ => 0) w i 0 0 Hi). unfold Rdiv. ring. }
  cbv zeta. rewrite X1.
  assert (FM : map (legval (skipn 1 c)) w = map (eval_legendre n) w).
  { apply map_ext. intros y. rewrite legval_ok. replace (skipn 1 c) with (repeat 0 n ++ [1]) by reflexivity. apply series_unit. }
  rewrite FM. set (A := abs_max (map (eval_legendre n) w)). set (B := abs_max (map (LD (S n)) w)).
  assert (AP : 0 < A /\ 0 < B).
  { destruct (ev_nz 0%nat ltac:(lia)) as (N1 & N2). assert (I : In (x 0%nat) w) by (apply nth_In; lia). split.
    - eapply Rlt_le_trans; [apply Rabs_pos_lt; exact N2|]. apply abs_max_ge, in_map, I.
    - eapply Rlt_le_trans; [apply Rabs_pos_lt; exact N1|]. apply abs_max_ge, in_map, I. }
  destruct AP as (AP & BP). rewrite (map_map (eval_legendre n)), (map_map (LD (S n))). pose proof (pos_INR n) as PN.
  set (k := A * B * (INR n + 1) / 2). assert (KP : 0 < k) by (unfold k; assert (0 < A * B) by (apply Rmult_lt_0_compat; assumption); nra).
  assert (W1 : map (fun p => 1 / p) (zipw Rmult (map (fun y => eval_legendre n y / A) w) (map (fun y => LD (S n) y / B) w)) = map (fun i => k * gw n x i) (seq 0 (S n))).
  { assert (L1 : length (zipw Rmult (map (fun y => eval_legendre n y / A) w) (map (fun y => LD (S n) y / B) w)) = S n) by (rewrite zipw_length; rewrite !map_length; auto).
    apply list_nth_eq; [rewrite !map_length, seq_length; exact L1|]. rewrite map_length, L1. intros i Hi. rewrite (nth_map_seq _ (S n)) by exact Hi.
    rewrite (nth_map_in (fun p => 1 / p) _ i 0 0) by lia. rewrite zipw_nth by (rewrite !map_length; auto; lia).
    rewrite (nth_map_in (fun y => eval_legendre n y / A) w i 0 0), (nth_map_in (fun y => LD (S n) y / B) w i 0 0) by lia. fold (x i).
    unfold gw, k. rewrite ev_kern by exact Hi. destruct (ev_nz i Hi) as (N1 & N2). field. repeat split; auto; lra. }
  rewrite W1.
  assert (W2 : map (fun s => s / 2) (zipw Rplus (map (fun i => k * gw n x i) (seq 0 (S n))) (rev (map (fun i => k * gw n x i) (seq 0 (S n))))) = map (fun i => k * gw n x i) (seq 0 (S n))).
  { set (u := map _ (seq 0 (S n))). assert (Lu : length u = S n) by (unfold u; rewrite map_length, seq_length; reflexivity).
    assert (L1 : length (zipw Rplus u (rev u)) = S n) by (rewrite zipw_length; rewrite ?rev_length; auto).
    apply list_nth_eq; [rewrite map_length; lia|]. rewrite map_length, L1. intros i Hi. rewrite (nth_map_in (fun s => s / 2) _ i 0 0) by lia.
    rewrite zipw_nth by (rewrite ?rev_length; auto; lia). rewrite rev_nth by lia. rewrite Lu. unfold u. rewrite !(nth_map_seq _ (S n)) by lia.
    replace (S n - S i)%nat with (n - i)%nat by lia. rewrite gw_sym by exact Hi. field. }
  rewrite W2.
  assert (X2 : map (fun s => s / 2) (zipw Rminus w (rev w)) = w).
  { assert (L1 : length (zipw Rminus w (rev w)) = S n) by (rewrite zipw_length; rewrite ?rev_length; auto).
    apply list_nth_eq; [rewrite map_length; lia|]. rewrite map_length, L1. intros i Hi. rewrite (nth_map_in (fun s => s / 2) _ i 0 0) by lia.
    rewrite zipw_nth by (rewrite ?rev_length; auto; lia). rewrite rev_nth by lia. rewrite LW. fold (x i). pose proof (roots_sym (S n) x ev_roots i Hi) as E'. unfold x in E' at 1. replace (S n - 1 - i)%nat with (S n - S i)%nat in E' by lia. rewrite E'. field. }
  rewrite X2, map_map.
  assert (SU : lsum (map (fun i => k * gw n x i) (seq 0 (S n))) = 2 * k).
  { rewrite lsum_rsum, map_length, seq_length. rewrite (rsum_ext (S n) _ (fun i => k * (gw n x i * x i ^ 0))) by (intros i Hi; rewrite (nth_map_seq _ (S n)) by exact Hi; cbn [pow]; ring).
    rewrite rsum_scal, (quad_pow n x (roots_distinct _ _ ev_roots) ev_zero 0) by lia. simpl. field. }
  rewrite SU. apply (f_equal (fun g => Ok (w, g))). apply map_ext. intros i. field. lra.
Qed.
Lemma gauss_rule ev : ev (legcompanion (S n)) = w -> exists g, leggauss ev (S n) = Ok (w, g) /\ length g = S n /\ legendre_roots (S n) w /\ gauss_weights (S n) w g /\
  integrates_powers (2 * n + 1) w g /\ (forall i, (i < S n)%nat -> 0 < nth i g 0) /\
  (forall i, (i < S n)%nat -> nth (n - i) w 0 = - nth i w 0 /\ nth (n - i) g 0 = nth i g 0).
Proof.
  intros E. exists (map (gw n x) (seq 0 (S n))). pose proof ev_len as LW. pose proof ev_roots as RT.
  assert (NG : forall i, (i < S n)%nat -> nth i (map (gw n x) (seq 0 (S n))) 0 = gw n x i) by (intros i Hi; apply nth_map_seq; exact Hi).
  split; [apply leggauss_value; exact E|]. split; [rewrite map_length, seq_length; reflexivity|].
  assert (IB : forall y, In y w -> -1 < y < 1) by (intros y I; destruct (In_nth w y 0 I) as (i & Hi & <-); apply RT; lia).
  split; [|split; [|split; [|split]]].
  - split; [exact LW|]. split; [intros i j H; apply RT; exact H|]. split; [exact IB|]. exists (eval_legendre (S n)). split; [apply legendre_is|]. intros y. split.
    + intros Z. destruct (roots_all _ _ RT y Z) as (i & Hi & ->). apply nth_In. lia.
    + intros I. destruct (In_nth w y 0 I) as (i & Hi & <-). apply RT. lia.
  - split; [rewrite map_length, seq_length; reflexivity|]. exists (eval_legendre (S n)), (LD (S n)). split; [apply legendre_is|]. split; [apply L_deriv|].
    intros i Hi. rewrite NG by exact Hi. fold (x i). unfold gw. pose proof (LD_c n (x i)) as C. rewrite ev_zero in C by exact Hi.
    replace ((1 - x i * x i) * LD (S n) (x i) ^ 2) with ((1 - x i * x i) * LD (S n) (x i) * LD (S n) (x i)) by ring. rewrite C, ev_kern by exact Hi. destruct (ev_nz i Hi). pose proof (pos_INR n). field. repeat split; auto; lra.
  - split; [rewrite map_length, seq_length; lia|]. split; [intros y I; specialize (IB y I); lra|]. intros k Hk. rewrite LW.
    rewrite (rsum_ext (S n) _ (fun i => gw n x i * x i ^ k)) by (intros i Hi; rewrite NG by exact Hi; reflexivity). apply quad_pow; [apply roots_distinct; exact RT|exact ev_zero|exact Hk].
  - intros i Hi. rewrite NG by exact Hi. apply gw_pos.
  - intros i Hi. rewrite !NG by lia. split; [|apply gw_sym; exact Hi]. pose proof (roots_sym (S n) x RT i Hi) as S0. replace (S n - 1 - i)%nat with (n - i)%nat in S0 by lia. exact S0.
Qed.
End Gauss.

(** ** no rule with these nodes does better *)
Definition pspan (m : nat) (f : R -> R) : Prop := exists c : nat -> R, forall x, f x = rsum m (fun k => c k * x ^ k).
Lemma pspan_lin n a b f g : pspan n f -> pspan n g -> pspan n (fun x => a * f x + b * g x).
Proof. intros (c & H) (d & K). exists (fun k => a * c k + b * d k). intros x. rewrite H, K, !rsum_scal_l, <- rsum_plus. apply rsum_ext. intros. ring. Qed.
Lemma pspan_ext n f g : (forall x, f x = g x) -> pspan n f -> pspan n g.
Proof. intros E (c & H). exists c. intros x. rewrite <- E. apply H. Qed.
Lemma pspan_mono n m f : (n <= m)%nat -> pspan n f -> pspan m f.
Proof.
  intros L (c & H). exists (fun k => if Nat.ltb k n then c k else 0). intros x. rewrite H. replace m with (n + (m - n))%nat by lia. rewrite rsum_app.
  rewrite (rsum_0 (m - n)); [|intros i _; destruct (Nat.ltb_spec (n + i) n); [lia|ring]]. rewrite Rplus_0_r. apply rsum_ext. intros i Hi. destruct (Nat.ltb_spec i n); [reflexivity|lia].
Qed.
Lemma pspan_x n f : pspan n f -> pspan (S n) (fun x => x * f x).
Proof.
  intros (c & H). exists (fun k => match k with O => 0 | S j => c j end). intros x. rewrite H, rsum_shift, Rmult_0_l, Rplus_0_l, rsum_scal_l. apply rsum_ext. intros. cbn [pow]. ring.
Qed.
Lemma pspan_mulL j m f : pspan m f -> pspan (m + j) (fun x => eval_legendre j x * f x).
Proof.
  intros F. assert (B : pspan (m + j) (fun x => eval_legendre j x * f x) /\ pspan (m + S j) (fun x => eval_legendre (S j) x * f x)); [|apply B].
  induction j as [|j [I1 I2]].
  - split; [rewrite Nat.add_0_r; apply (pspan_ext _ f); [intros; rewrite L_0; ring|exact F]|]. replace (m + 1)%nat with (S m) by lia. apply (pspan_ext _ (fun x => x * f x)); [intros; rewrite L_1; ring|apply pspan_x; exact F].
  - split; [exact I2|]. pose proof (pos_INR j). apply (pspan_ext _ (fun x => (2 * INR j + 3) / (INR j + 2) * (x * (eval_legendre (S j) x * f x)) + - ((INR j + 1) / (INR j + 2)) * (eval_legendre j x * f x))).
    + intros x. apply (Rmult_eq_reg_l (INR j + 2)); [|lra]. rewrite <- (Rmult_assoc (INR j + 2) (eval_legendre (S (S j)) x)), L_S. field. lra.
    + apply pspan_lin; [|apply (pspan_mono (m + j)); [lia|exact I1]]. replace (m + S (S j))%nat with (S (m + S j)) by lia. apply (pspan_x _ (fun x => eval_legendre (S j) x * f x)). exact I2.
Qed.
Lemma gauss_sharp n x g : is_eigvalsh (legcompanion (S n)) x -> ~ integrates_powers (2 * n + 2) x g.
Proof.
  intros EV (LG & _ & IP). pose proof (eig_roots _ _ EV) as (LX & RT).
  assert (PE : forall y, In y x -> eval_legendre (S n) y = 0) by (intros y I; destruct (In_nth x y 0 I) as (i & Hi & <-); apply RT; lia).
  destruct (pspan_mulL (S n) (S (S n)) (eval_legendre (S n))) as (c & E).
  { apply (pspan_ext _ (fun y => eval_legendre (S n) y * 1)); [intros; ring|]. apply (pspan_mulL (S n) 1 (fun _ => 1)). exists (fun _ => 1). intros y. cbn. ring. }
  assert (PN := pint_norm (S n)).
  assert (P0 : pint (fun y => eval_legendre (S n) y * eval_legendre (S n) y) (rsum (S (S n) + S n) (fun k => c k * ((1 - (-1) ^ (k + 1)) / (INR k + 1))))).
  { apply (pint_ext _ _ _ (fun y => eq_sym (E y))). apply (pint_sum _ (fun k y => c k * y ^ k)). intros k _. apply pint_scal, pint_pow. }
  pose proof (pint_unique _ _ _ PN P0) as U.
  rewrite (rsum_ext (S (S n) + S n) _ (fun k => rsum (length x) (fun i => nth i g 0 * (c k * nth i x 0 ^ k)))) in U.
  - rewrite rsum_swap in U. rewrite (rsum_0 (length x)) in U.
    + pose proof (pos_INR (S n)). assert (0 < 2 / (2 * INR (S n) + 1)) by (apply Rdiv_lt_0_compat; lra). lra.
    + intros i Hi. rewrite rsum_scal, <- E, PE by (apply nth_In; exact Hi). ring.
  - intros k Hk. rewrite <- IP by lia. rewrite rsum_scal_l. apply rsum_ext. intros. ring.
Qed.
