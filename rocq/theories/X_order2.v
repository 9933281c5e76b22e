(** Weights of designs are found again. *)
From Coq Require Import Lra Lia.
From Verif Require Import Base BaseFacts M_utils M_sig P_sig M_sph0 M_sph M_grids S_utils S_sph S_grids S_svd P_sph7 P_sph11 P_grids2 P_grids3 P_svd3 X_sph S_order P_order X_order.
Open Scope R_scope.

Lemma lsum_repeat x k : lsum (repeat x k) = INR k * x.
Proof. induction k as [|k IH]; [cbn; ring|]. rewrite S_INR. cbn [repeat lsum fold_right]. fold (lsum (repeat x k)). rewrite IH. ring. Qed.
Lemma spread v w : lsum (map (fun x => (x - v) * (x - v)) w) = lsum (map (fun x => x * x) w) - 2 * v * lsum w + INR (length w) * (v * v).
Proof. induction w as [|x w IH]; [cbn; ring|]. cbn [map lsum fold_right length]. fold (lsum w). fold (lsum (map (fun x => (x - v) * (x - v)) w)). fold (lsum (map (fun x => x * x) w)). rewrite IH, S_INR. ring. Qed.
Lemma no_spread v w : lsum (map (fun x => (x - v) * (x - v)) w) <= 0 -> w = repeat v (length w).
Proof.
  induction w as [|x w IH]; [reflexivity|]. cbn [map lsum fold_right length repeat]. fold (lsum (map (fun x => (x - v) * (x - v)) w)). intros H.
  assert (P : 0 <= lsum (map (fun x => (x - v) * (x - v)) w)). { clear. induction w as [|y w IH]; [cbn; lra|]. cbn [map lsum fold_right]. fold (lsum (map (fun x => (x - v) * (x - v)) w)). pose proof (Rle_0_sqr (y - v)) as Q. unfold Rsqr in Q. lra. }
  pose proof (Rle_0_sqr (x - v)) as Q. unfold Rsqr in Q. assert (E : x - v = 0) by (apply Rsqr_0_uniq; unfold Rsqr; lra). rewrite <- IH by lra. f_equal. lra.
Qed.
Lemma least_is_equal azi zen N w : exact_for sh_real N azi zen (equal_weights (length azi)) -> exact_for sh_real N azi zen w ->
  (forall w', exact_for sh_real N azi zen w' -> lsum (map (fun x => x * x) w) <= lsum (map (fun x => x * x) w')) -> w = equal_weights (length azi).
Proof.
  intros E (_ & L & _ & S & _) M. specialize (M _ E). pose proof E as (_ & _ & _ & SE & _). set (Q := length azi) in *. unfold equal_weights in *. set (v := 4 * PI / INR Q) in *.
  assert (MR : map (fun x => x * x) (repeat v Q) = repeat (v * v) Q); [clear; clearbody v Q; induction Q as [|q IHq]; [reflexivity|]; cbn [repeat map]; rewrite IHq; reflexivity|].
  rewrite MR, lsum_repeat in M. rewrite lsum_repeat in SE. rewrite <- L. apply no_spread. rewrite spread, S, L. nra.
Qed.
Lemma f_order_designs pinv cond azi zen N : exact_pinv pinv -> (1 <= N)%nat -> exact_for sh_real (2 * N) azi zen (equal_weights (length azi)) ->
  calculate_grid_weights pinv cond azi zen (Some (Z.of_nat N)) = Ok (equal_weights (length azi)).
Proof.
  intros HP HN EX. pose proof EX as (L & _ & Z & S & _). assert (E1 : exact_for sh_real N azi zen (equal_weights (length azi))) by (apply (X_order.exact_mono N (2 * N)); [lia|exact EX]).
  assert (Q : (0 < length azi)%nat). { destruct (length azi) as [|q] eqn:Eq; [|lia]. cbn in S. pose proof PI_RGT_0. lra. }
  set (v := 4 * PI / INR (length azi)). assert (V : 0 < v) by (apply Rdiv_lt_0_compat; [pose proof PI_RGT_0; lra|apply lt_0_INR; exact Q]).
  destruct (quad_supports N azi zen (equal_weights (length azi)) v v N EX V) as (Y & E & RG & _); [lra|intros x Hx; apply repeat_spec in Hx; subst x; fold v; lra|lia|].
  assert (LI : left_invertible Y) by (apply (regular_left Y (pinv Y)); [apply gram_regular; exact RG|apply HP]).
  destruct (grid_weights_ok pinv cond N azi zen Y) as (w & EW & X & M); auto. rewrite EW. f_equal. apply (least_is_equal azi zen N); auto.
Qed.
Lemma f_order_found_designs pinv cond azi zen t w N : exact_pinv pinv -> cond_contract cond -> (length azi < 100 ^ 2)%nat ->
  exact_for sh_real t azi zen (equal_weights (length azi)) -> (forall k, (1 <= k <= N)%nat -> supports azi zen k) -> ~ supports azi zen (N + 1) -> (N <= t)%nat ->
  calculate_grid_weights pinv cond azi zen None = Ok w -> w = equal_weights (length azi).
Proof.
  intros HP HC HQ EX S NS HN EW. pose proof EX as (L & _ & Z & _). destruct (order_result pinv cond azi zen HP HC L Z HQ) as (N' & S' & NS' & E0 & E1).
  assert (N' = N). { destruct (Nat.lt_trichotomy N' N) as [H|[H|H]]; [|exact H|]; exfalso; [apply NS', S; lia|apply NS, S'; lia]. } subst N'.
  destruct N as [|N]; [rewrite E0 in EW by reflexivity; discriminate|]. destruct (E1 ltac:(lia)) as (_ & w' & EW' & X & M). rewrite EW in EW'. injection EW' as <-.
  apply (least_is_equal azi zen (Datatypes.S N)); auto. apply (X_order.exact_mono (Datatypes.S N) t); auto.
Qed.
