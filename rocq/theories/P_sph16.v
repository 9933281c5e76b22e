(** Diffuse field pressure on a sphere and its compensation. *)
From Verif Require Import Base BaseFacts M_utils M_sig M_process M_sph M_sph2 S_sph2 P_sph1 P_sph6 P_parsa3 P_dec10 X_io4 P_sph14 P_sph15.
Open Scope R_scope.
Notation power n kr := (scatter_power (spherical_jn n kr true) (num (spherical_yn n kr true)) kr).

Lemma combine_maps {A B C} (f : A -> B) (g : A -> C) l : combine (map f l) (map g l) = map (fun a => (f a, g a)) l.
Proof. induction l as [|a l IH]; [reflexivity|]. cbn [map combine]. rewrite IH. reflexivity. Qed.
Definition loop_value (g : R -> option R) (w : list R) (n0 m : nat) (k : R) : option R :=
  match m with
  | O => g k
  | S _ => match g k with
           | None => None
           | Some p => if Reqb k 0 then None else Some (p + rsum m (fun i => nth (n0 + i) w 0 * INR (2 * (n0 + i) + 1) * ((4 * PI) ^ 2 * power (n0 + i)%nat k)))
           end
  end.
Lemma loop_ok w m : forall kr n0 g, (n0 + m <= length w)%nat ->
  pressure_loop kr w (seq n0 m) (map g kr) = Ok (map (loop_value g w n0 m) kr).
Proof.
  induction m as [|m IH]; intros kr n0 g L; [reflexivity|].
  cbn [seq pressure_loop]. rewrite (index_ok w (Z.of_nat n0) 0) by lia. cbn [bind]. rewrite (proj2 (Z.ltb_ge _ _)) by lia. rewrite Nat2Z.id.
  rewrite (mapM_ok_map _ (fun k => if Reqb k 0 then None else Some (rigid_amp n0 k))).
  2:{ intros k _. unfold Reqb. destruct (Req_EM_T k 0) as [->|NZ]; [apply rigid_zero|apply rigid_value; exact NZ]. }
  cbn [bind]. rewrite combine_maps, map_map. rewrite IH by lia. f_equal. apply map_ext. intros k. cbn [fst snd].
  unfold loop_value. unfold Reqb. destruct (Req_EM_T k 0) as [->|NZ].
  - destruct (g 0) as [p|]; destruct m; cbn [add_mode]; try reflexivity.
  - destruct (g k) as [p|]; [|destruct m; reflexivity]. cbn [add_mode]. rewrite rigid_size by exact NZ.
    rewrite (rsum_shift m). rewrite Nat.add_0_r. destruct m as [|m]; [cbn [rsum]; rewrite Rplus_0_r; reflexivity|].
    f_equal. rewrite <- Rplus_assoc. f_equal. apply rsum_ext. intros i _. replace (n0 + S i)%nat with (S n0 + i)%nat by lia. reflexivity.
Qed.
Lemma loop_short w m : forall kr n0 g, (n0 <= length w < n0 + m)%nat -> pressure_loop kr w (seq n0 m) (map g kr) = Err IndexError.
Proof.
  induction m as [|m IH]; intros kr n0 g L; [lia|].
  cbn [seq pressure_loop]. destruct (Nat.eq_dec n0 (length w)) as [E|E]; [rewrite index_err by lia; reflexivity|].
  rewrite (index_ok w (Z.of_nat n0) 0) by lia. cbn [bind].
  rewrite (mapM_ok_map _ (fun k => if Reqb k 0 then None else Some (rigid_amp n0 k))).
  2:{ intros k _. unfold Reqb. destruct (Req_EM_T k 0) as [->|NZ]; [apply rigid_zero|apply rigid_value; exact NZ]. }
  cbn [bind]. rewrite combine_maps, map_map. apply IH. lia.
Qed.
Lemma pressure_ok N kr w : enough N w ->
  pressure_on_sphere (Z.of_nat N) kr w = Ok (map (fun k => diffuse_pressure N (weight w) (fun n => power n k) k) kr).
Proof.
  intros E. set (wl := match w with Some w => w | None => repeat 1 (S N) end).
  assert (LW : (S N <= length wl)%nat) by (unfold wl; destruct w as [w|]; [exact E|rewrite repeat_length; lia]).
  assert (NW : forall n, (n <= N)%nat -> nth n wl 0 = weight w n).
  { intros n Hn. unfold wl, weight. destruct w as [w|]; [reflexivity|]. apply (repeat_spec (S N) 1). apply nth_In. rewrite repeat_length. lia. }
  unfold pressure_on_sphere. replace (Z.to_nat (Z.of_nat N + 1)) with (S N) by lia.
  assert (HW : match w with Some w => Ok w | None => if (Z.of_nat N + 1 <? 0)%Z then Err ValueError else Ok (repeat 1 (S N)) end = Ok wl).
  { unfold wl. destruct w; [reflexivity|]. rewrite (proj2 (Z.ltb_ge _ _)) by lia. reflexivity. }
  rewrite HW. cbn [bind]. rewrite loop_ok by lia. cbn [bind]. rewrite map_map. f_equal. apply map_ext. intros k.
  unfold loop_value, diffuse_pressure, Reqb. destruct (Req_EM_T k 0) as [K|K]; [reflexivity|].
  assert (S0 : 0 + rsum (S N) (fun i => nth (0 + i) wl 0 * INR (2 * (0 + i) + 1) * ((4 * PI) ^ 2 * power (0 + i)%nat k)) = (4 * PI) ^ 2 * order_sum N (weight w) (fun n => power n k)).
  { rewrite Rplus_0_l. unfold order_sum. rewrite <- rsum_scal. apply rsum_ext. intros i Hi. rewrite Nat.add_0_l, NW by lia. rewrite plus_INR, mult_INR. simpl (INR 2). simpl (INR 1). ring. }
  rewrite S0. cbn [obind]. unfold np_sqrt, Rltb. pose proof PI_RGT_0 as HP. assert (P2 : 0 < (4 * PI) ^ 2) by (apply pow_lt; lra).
  set (s := order_sum N (weight w) (fun n => power n k)) in *. destruct (Rlt_dec s 0) as [Hs|Hs].
  - destruct (Rlt_dec ((4 * PI) ^ 2 * s) 0) as [H|H]; [reflexivity|exfalso]. apply H. replace 0 with ((4 * PI) ^ 2 * 0) by ring. apply Rmult_lt_compat_l; assumption.
  - destruct (Rlt_dec ((4 * PI) ^ 2 * s) 0) as [H|H].
    + exfalso. assert (0 <= (4 * PI) ^ 2 * s) by (apply Rmult_le_pos; lra). lra.
    + cbn [obind]. f_equal. rewrite sqrt_mult by lra. rewrite sqrt_pow2 by lra. field. lra.
Qed.
Lemma pressure_short N kr w : (length w <= N)%nat -> pressure_on_sphere (Z.of_nat N) kr (Some w) = Err IndexError.
Proof.
  intros L. unfold pressure_on_sphere. cbn [bind]. replace (Z.to_nat (Z.of_nat N + 1)) with (S N) by lia.
  rewrite loop_short by lia. reflexivity.
Qed.
Lemma index_last (l : list R) : l <> [] -> index l (-1) = Ok (last l 0).
Proof.
  intros NE. destruct (exists_last NE) as (t & a & ->). rewrite (index_ok _ _ 0) by (rewrite app_length; cbn [length]; lia).
  cbn [Z.ltb Z.compare]. rewrite last_last, app_length. cbn [length]. replace (Z.to_nat (-1 + Z.of_nat (length t + 1))) with (length t) by lia.
  rewrite app_nth2 by lia. rewrite Nat.sub_diag. reflexivity.
Qed.
Lemma compensation_ok N f r_0 w (M : nat) : enough N w -> f <> [] -> zceil (last (krs f r_0) 0) = Z.of_nat M ->
  binaural_coloration_compensation N f r_0 w = Ok (map (fun k =>
    safe_ratio (diffuse_pressure M (fun _ => 1) (fun n => power n k) k) (diffuse_pressure N (weight w) (fun n => power n k) k)) (krs f r_0)).
Proof.
  intros E NE HM. unfold binaural_coloration_compensation. fold (krs f r_0).
  rewrite index_last by (unfold krs; destruct f; [contradiction|discriminate]). cbn [bind]. rewrite HM.
  rewrite (pressure_ok M _ None) by exact I. cbn [bind]. rewrite (pressure_ok N _ w E). cbn [bind]. rewrite combine_maps, map_map. reflexivity.
Qed.
Lemma order_sum_nonneg N w p : (forall n, (n <= N)%nat -> 0 <= w n) -> (forall n, 0 < p n) -> 0 <= order_sum N w p.
Proof.
  intros Hw Hp. unfold order_sum. apply rsum_nonneg. intros n Hn. pose proof (Hp n). pose proof (pos_INR n).
  apply Rmult_le_pos; [|lra]. apply Rmult_le_pos; [apply Hw; lia|lra].
Qed.
Lemma order_sum_pos N w p i : (forall n, (n <= N)%nat -> 0 <= w n) -> (forall n, 0 < p n) -> (i <= N)%nat -> 0 < w i -> 0 < order_sum N w p.
Proof.
  intros Hw Hp Hi Hwi. induction N as [|N IH].
  - assert (i = 0%nat) by lia. subst i. unfold order_sum. cbn [rsum]. simpl INR. pose proof (Hp 0%nat). rewrite Rplus_0_l. repeat apply Rmult_lt_0_compat; lra.
  - unfold order_sum in *. cbn [rsum]. cbn [rsum] in IH. pose proof (Hp (S N)). pose proof (pos_INR (S N)).
    destruct (Nat.eq_dec i (S N)) as [->|NI].
    + assert (0 <= rsum (S N) (fun n => w n * (2 * INR n + 1) * p n)) by (apply (order_sum_nonneg N w p); [intros; apply Hw; lia|exact Hp]).
      assert (0 < w (S N) * (2 * INR (S N) + 1) * p (S N)) by (repeat apply Rmult_lt_0_compat; lra). cbn [rsum] in H1. lra.
    + assert (0 < rsum N (fun n => w n * (2 * INR n + 1) * p n) + w N * (2 * INR N + 1) * p N) by (apply IH; [intros; apply Hw; lia|lia]).
      assert (0 <= w (S N) * (2 * INR (S N) + 1) * p (S N)) by (apply Rmult_le_pos; [apply Rmult_le_pos; [apply Hw; lia|lra]|lra]). lra.
Qed.
Lemma order_sum_le N M w v p : (N <= M)%nat -> (forall n, 0 < p n) -> (forall n, (n <= N)%nat -> w n <= v n) -> (forall n, (n <= M)%nat -> 0 <= v n) ->
  order_sum N w p <= order_sum M v p.
Proof.
  intros L Hp Hwv Hv. unfold order_sum.
  assert (A : rsum (S N) (fun n => w n * (2 * INR n + 1) * p n) <= rsum (S N) (fun n => v n * (2 * INR n + 1) * p n)).
  { apply rsum_le. intros n Hn. pose proof (Hp n). pose proof (pos_INR n). apply Rmult_le_compat_r; [lra|]. apply Rmult_le_compat_r; [lra|]. apply Hwv. lia. }
  eapply Rle_trans; [exact A|]. clear A. induction L as [|M L IH]; [lra|]. eapply Rle_trans; [apply IH; intros; apply Hv; lia|].
  change (rsum (S (S M)) (fun n => v n * (2 * INR n + 1) * p n)) with (rsum (S M) (fun n => v n * (2 * INR n + 1) * p n) + v (S M) * (2 * INR (S M) + 1) * p (S M)).
  pose proof (Hp (S M)). pose proof (pos_INR (S M)). assert (0 <= v (S M) * (2 * INR (S M) + 1) * p (S M)) by (apply Rmult_le_pos; [apply Rmult_le_pos; [apply Hv; lia|lra]|lra]). lra.
Qed.
Lemma order_sum_lt M N p : (M < N)%nat -> (forall n, 0 < p n) -> order_sum M (fun _ => 1) p < order_sum N (fun _ => 1) p.
Proof.
  intros L Hp. destruct N as [|N]; [lia|].
  apply Rle_lt_trans with (order_sum N (fun _ => 1) p); [apply order_sum_le; [lia|exact Hp|intros; lra|intros; lra]|].
  unfold order_sum. change (rsum (S (S N)) (fun n => 1 * (2 * INR n + 1) * p n)) with (rsum (S N) (fun n => 1 * (2 * INR n + 1) * p n) + 1 * (2 * INR (S N) + 1) * p (S N)).
  pose proof (Hp (S N)). pose proof (pos_INR (S N)). assert (0 < 1 * (2 * INR (S N) + 1) * p (S N)) by (repeat apply Rmult_lt_0_compat; lra). lra.
Qed.
Lemma ratio_zero N M w p : safe_ratio (diffuse_pressure M (fun _ => 1) p 0) (diffuse_pressure N w p 0) = Num 1.
Proof. unfold diffuse_pressure. destruct (Req_EM_T 0 0); [reflexivity|contradiction]. Qed.
Lemma ratio_value N M w k p : k <> 0 -> (forall n, 0 < p n) -> 0 < order_sum N w p ->
  safe_ratio (diffuse_pressure M (fun _ => 1) p k) (diffuse_pressure N w p k) = Num (sqrt (order_sum M (fun _ => 1) p / order_sum N w p)).
Proof.
  intros Hk Hp S0. assert (S1 : 0 < order_sum M (fun _ => 1) p) by (apply order_sum_pos with 0%nat; [intros; lra|exact Hp|lia|lra]).
  unfold diffuse_pressure. destruct (Req_EM_T k 0); [contradiction|]. destruct (Rlt_dec (order_sum M (fun _ => 1) p) 0); [lra|].
  destruct (Rlt_dec (order_sum N w p) 0); [lra|]. unfold safe_ratio. pose proof (sqrt_lt_R0 _ S0). rewrite eqb_no by lra. f_equal. rewrite sqrt_div by lra. reflexivity.
Qed.
Lemma ratio_inf N M w k p : k <> 0 -> (forall n, 0 < p n) -> (forall n, (n <= N)%nat -> w n = 0) ->
  safe_ratio (diffuse_pressure M (fun _ => 1) p k) (diffuse_pressure N w p k) = Infinite.
Proof.
  intros Hk Hp W0. assert (S1 : 0 < order_sum M (fun _ => 1) p) by (apply order_sum_pos with 0%nat; [intros; lra|exact Hp|lia|lra]).
  assert (S0 : order_sum N w p = 0) by (unfold order_sum; apply rsum_0; intros n Hn; rewrite W0 by lia; ring).
  unfold diffuse_pressure. destruct (Req_EM_T k 0); [contradiction|]. destruct (Rlt_dec (order_sum M (fun _ => 1) p) 0); [lra|].
  rewrite S0. destruct (Rlt_dec 0 0); [lra|]. unfold safe_ratio. rewrite sqrt_0. unfold Reqb at 1. destruct (Req_EM_T 0 0); [|contradiction].
  pose proof (sqrt_lt_R0 _ S1). rewrite eqb_no by lra. reflexivity.
Qed.
