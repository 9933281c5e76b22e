(** Degrees the loaders return, points and weights of the equal angle grid. *)
From Coq Require Import Lra Lia.
From Verif Require Import Base BaseFacts M_utils M_sig M_sph0 M_sph M_grids S_sph S_grids P_sph1 P_grids1 P_grids2 P_grids3.
Open Scope R_scope.

(** ** gaps of the tables *)
Lemma gap_bound has lo hi k : (lo <= hi)%Z ->
  forallb (fun i => let d := (lo + Z.of_nat i)%Z in existsb (fun r => (d <=? r) && (r <=? d + k))%Z has) (seq 0 (Z.to_nat (hi - lo + 1))) = true ->
  forall d r, (lo <= d <= hi)%Z -> next_degree has d r -> (d <= r <= d + k)%Z.
Proof.
  intros LH F d r Hd (I & L & M). split; [exact L|].
  rewrite forallb_forall in F. specialize (F (Z.to_nat (d - lo))). rewrite in_seq in F.
  assert (E := F ltac:(lia)). cbv zeta in E. rewrite Z2Nat.id in E by lia. replace (lo + (d - lo))%Z with d in E by lia.
  apply existsb_exists in E. destruct E as (q & Iq & Q). apply andb_prop in Q. destruct Q as (Q1 & Q2). apply Z.leb_le in Q1, Q2.
  specialize (M q Iq Q1). lia.
Qed.
Lemma n_design_gap tab d : (1 <= d <= 124)%Z -> exists r, (d <= r <= d + 13)%Z /\ (r <= 124)%Z /\ load_n_design tab d = Ok (tab r).
Proof.
  intros H. destruct (n_design_next tab d H) as (r & N & L & E). exists r. split; [|auto].
  apply (gap_bound n_design_degrees 1 124 13); [lia|vm_compute; reflexivity|exact H|exact N].
Qed.
Lemma n_design_gap_low tab d : (1 <= d <= 90)%Z -> exists r, (d <= r <= d + 1)%Z /\ load_n_design tab d = Ok (tab r).
Proof.
  intros H. destruct (n_design_next tab d ltac:(lia)) as (r & N & L & E). exists r. split; [|auto].
  apply (gap_bound n_design_degrees 1 90 1); [lia|vm_compute; reflexivity|exact H|exact N].
Qed.
Lemma lebedev_gap d r : (3 <= d <= 131)%Z -> next_degree lebedev_degrees d r -> (d <= r <= d + 5)%Z /\ ((d <= 31)%Z -> (r <= d + 1)%Z).
Proof.
  intros H N. split; [apply (gap_bound lebedev_degrees 3 131 5); [lia|vm_compute; reflexivity|exact H|exact N]|].
  intros H'. apply (gap_bound lebedev_degrees 3 31 1); [lia|vm_compute; reflexivity|lia|exact N].
Qed.
Lemma gaps_attained tab : load_n_design tab 101 = Ok (tab 114%Z) /\ load_n_design tab 115 = Ok (tab 124%Z) /\ next_degree lebedev_degrees 126 131.
Proof.
  split; [reflexivity|]. split; [reflexivity|]. unfold next_degree.
  split; [apply existsb_In; reflexivity|]. split; [lia|]. intros r I L.
  assert (F : forallb (fun r => (r <? 126) || (131 <=? r))%Z lebedev_degrees = true) by (vm_compute; reflexivity).
  rewrite forallb_forall in F. specialize (F r I). apply Bool.orb_prop in F. destruct F as [F|F]; [apply Z.ltb_lt in F|apply Z.leb_le in F]; lia.
Qed.

(** ** points of the equal angle grid *)
Lemma pair3 {A B C} {a a' : A} {b b' : B} {c c' : C} : (a, b, c) = (a', b', c') -> a = a' /\ b = b' /\ c = c'.
Proof. intros H. injection H. auto. Qed.
Lemma ea_points n azi zen w : equal_angle n = (azi, zen, w) -> forall i j, (i < 2 * n + 2)%nat -> (j < 2 * n + 2)%nat ->
  nth (i * (2 * n + 2) + j) azi 0 = PI * INR j / (INR n + 1) /\
  nth (i * (2 * n + 2) + j) zen 0 = PI * (2 * INR i + 1) / (4 * (INR n + 1)).
Proof.
  intros E i j Hi Hj. destruct (pair3 E) as (<- & <- & _).
  assert (N : 0 < INR n + 1) by (pose proof (pos_INR n); lra).
  assert (IN : INR (2 * n + 2) = 2 * (INR n + 1)) by (rewrite plus_INR, mult_INR; simpl; lra).
  split.
  - pose proof (nth_tile (linspace0 (2 * PI) (2 * n + 2)) (2 * n + 2) i j 0) as T. rewrite length_linspace in T. rewrite T by auto.
    rewrite nth_linspace by auto. rewrite IN. field. lra.
  - rewrite nth_rep by (auto; rewrite map_length, length_linspace; auto).
    rewrite (nth_map_in (fun t => t + PI / INR (2 * n + 2) / 2) _ i 0 0) by (rewrite length_linspace; auto).
    rewrite nth_linspace by auto. rewrite IN. field. lra.
Qed.
(** ** the weights are positive: partial summation *)
Lemma sin_odd_sum t n : sin t * rsum (S n) (fun l => sin (INR (2 * l + 1) * t)) = sin (INR (S n) * t) ^ 2.
Proof.
  induction n as [|n IH].
  - cbn [rsum]. replace (INR (2 * 0 + 1)) with 1 by (simpl; lra). replace (INR 1) with 1 by (simpl; lra). rewrite Rmult_1_l. ring.
  - change (rsum (S (S n)) (fun l => sin (INR (2 * l + 1) * t))) with (rsum (S n) (fun l => sin (INR (2 * l + 1) * t)) + sin (INR (2 * S n + 1) * t)).
    rewrite Rmult_plus_distr_l, IH. rewrite (S_INR (S n)).
    replace (INR (2 * S n + 1)) with (2 * INR (S n) + 1) by (rewrite plus_INR, mult_INR; simpl (INR 2); simpl (INR 1); ring).
    set (a := INR (S n) * t). replace ((2 * INR (S n) + 1) * t) with (a + (a + t)) by (unfold a; ring). replace ((INR (S n) + 1) * t) with (a + t) by (unfold a; ring).
    assert (Ea := sin2_cos2 a). assert (Et := sin2_cos2 t). unfold Rsqr in *.
    rewrite (sin_plus a (a + t)), (cos_plus a t), (sin_plus a t).
    set (s := sin a) in *. set (c := cos a) in *. set (u := sin t) in *. set (v := cos t) in *.
    nra.
Qed.
Lemma abel (f : nat -> R) (q : nat -> R) : (forall n, 0 <= rsum (S n) f) -> (forall l, 0 < q (S l) <= q l) -> 0 < f 0%nat ->
  (forall l, q (S l) < q l) -> forall n, 0 < rsum (S n) (fun l => f l * q l) - rsum (S n) f * q (S n) .
Proof.
  intros F Q F0 QS. induction n as [|n IH].
  - cbn [rsum]. specialize (QS 0%nat). nra.
  - change (rsum (S (S n)) (fun l => f l * q l)) with (rsum (S n) (fun l => f l * q l) + f (S n) * q (S n)).
    assert (E : rsum (S (S n)) f = rsum (S n) f + f (S n)) by reflexivity.
    pose proof (F (S n)). pose proof (QS (S n)). nra.
Qed.
Lemma odd_series_pos t n : 0 < t < PI -> 0 < rsum (S n) (fun l => sin (INR (2 * l + 1) * t) / INR (2 * l + 1)).
Proof.
  intros T. assert (S0 : 0 < sin t) by (apply sin_gt_0; lra).
  assert (P : forall k, 0 < INR (2 * k + 1)) by (intros k; apply lt_0_INR; lia).
  assert (FS : forall m, 0 <= rsum (S m) (fun l => sin (INR (2 * l + 1) * t))).
  { intros m. pose proof (sin_odd_sum t m) as E. pose proof (pow2_ge_0 (sin (INR (S m) * t))). nra. }
  pose proof (abel (fun l => sin (INR (2 * l + 1) * t)) (fun l => / INR (2 * l + 1)) FS) as A.
  assert (D : forall l, / INR (2 * S l + 1) < / INR (2 * l + 1)).
  { intros l. apply Rinv_lt_contravar; [apply Rmult_lt_0_compat; auto|apply lt_INR; lia]. }
  specialize (A ltac:(intros l; split; [apply Rinv_0_lt_compat, P|left; apply D])).
  specialize (A ltac:(cbv beta; replace (INR (2 * 0 + 1)) with 1 by (simpl; lra); rewrite Rmult_1_l; exact S0) D n).
  specialize (FS n). pose proof (Rinv_0_lt_compat _ (P (S n))) as Q.
  unfold Rdiv. cbv beta in A, FS |- *. nra.
Qed.
Lemma lsum_nth_map {A} (f : A -> R) (l : list A) d : lsum (map f l) = rsum (length l) (fun i => f (nth i l d)).
Proof. induction l as [|x l IH]; [reflexivity|]. cbn [map length]. rewrite rsum_shift. cbn [lsum fold_right nth]. fold (lsum (map f l)). rewrite IH. reflexivity. Qed.
Lemma ea_weights n azi zen w : equal_angle n = (azi, zen, w) -> forall i j, (i < 2 * n + 2)%nat -> (j < 2 * n + 2)%nat ->
  let t := nth (i * (2 * n + 2) + j) zen 0 in
  nth (i * (2 * n + 2) + j) w 0 = 2 * PI / (INR n + 1) ^ 2 * sin t * rsum (n + 1) (fun l => sin (INR (2 * l + 1) * t) / INR (2 * l + 1)) /\
  0 < nth (i * (2 * n + 2) + j) w 0.
Proof.
  intros E i j Hi Hj t. destruct (ea_points n azi zen w E i j Hi Hj) as (_ & Z). fold t in Z.
  assert (N : 0 < INR n + 1) by (pose proof (pos_INR n); lra).
  assert (T : 0 < t < PI).
  { pose proof PI_RGT_0. pose proof (pos_INR i).
    assert (I2 : INR i <= INR (2 * n + 1)) by (apply le_INR; lia). rewrite plus_INR, mult_INR in I2. simpl in I2.
    rewrite Z. split; [apply Rmult_lt_0_compat; [nra|apply Rinv_0_lt_compat; lra]|].
    apply (Rmult_lt_reg_r (4 * (INR n + 1))); [lra|]. unfold Rdiv. rewrite Rmult_assoc, Rinv_l by lra. nra. }
  assert (V : nth (i * (2 * n + 2) + j) w 0 = 2 * PI / (INR n + 1) ^ 2 * sin t * rsum (n + 1) (fun l => sin (INR (2 * l + 1) * t) / INR (2 * l + 1))).
  { destruct (pair3 E) as (_ & Ez & <-).
    set (zs := map _ (linspace0 PI (2 * n + 2))) in *.
    assert (Lz : length zs = (2 * n + 2)%nat) by (unfold zs; rewrite map_length, length_linspace; reflexivity).
    assert (Et : nth i zs 0 = t) by (unfold t; rewrite <- Ez; rewrite nth_rep by (auto; lia); reflexivity).
    rewrite (nth_map_in (fun w => w / (INR n + 1)) _ _ 0 0) by (rewrite length_rep, map_length, Lz; nia).
    rewrite nth_rep by (auto; rewrite map_length; lia).
    rewrite (nth_map_in (fun theta => 2 * PI / (INR n + 1) * sin theta * lsum (map (fun q => sin (q * theta) / q) (map (fun l => INR (2 * l + 1)) (seq 0 (n + 1))))) zs i 0 0) by lia.
    rewrite Et, map_map, (lsum_nth_map _ _ 0%nat), seq_length.
    rewrite (rsum_ext (n + 1) (fun i0 => sin (INR (2 * nth i0 (seq 0 (n + 1)) 0%nat + 1) * t) / INR (2 * nth i0 (seq 0 (n + 1)) 0%nat + 1)) (fun l => sin (INR (2 * l + 1) * t) / INR (2 * l + 1))) by (intros l Hl; rewrite seq_nth by lia; reflexivity).
    field. lra. }
  split; [exact V|]. rewrite V. replace (n + 1)%nat with (S n) by lia.
  pose proof (odd_series_pos t n T). assert (0 < sin t) by (apply sin_gt_0; lra). pose proof PI_RGT_0.
  assert (0 < 2 * PI / (INR n + 1) ^ 2) by (apply Rmult_lt_0_compat; [lra|apply Rinv_0_lt_compat, pow_lt; lra]).
  apply Rmult_lt_0_compat; [apply Rmult_lt_0_compat|]; auto.
Qed.
(** ** points of the Gauss grid *)
Lemma gauss_points leggauss n azi zen w x g : leggauss (n + 1)%nat = (x, g) -> length x = (n + 1)%nat -> length g = (n + 1)%nat -> gauss leggauss n = (azi, zen, w) ->
  forall i j, (i < n + 1)%nat -> (j < 2 * n + 2)%nat ->
  nth (i * (2 * n + 2) + j) azi 0 = PI * INR j / (INR n + 1) /\
  nth (i * (2 * n + 2) + j) zen 0 = acos (nth i x 0) /\
  nth (i * (2 * n + 2) + j) w 0 = PI / (INR n + 1) * nth i g 0.
Proof.
  intros EL Lx Lg E i j Hi Hj. unfold gauss in E. rewrite EL in E. destruct (pair3 E) as (<- & <- & <-).
  assert (N : 0 < INR n + 1) by (pose proof (pos_INR n); lra).
  assert (IN : INR (2 * n + 2) = 2 * (INR n + 1)) by (rewrite plus_INR, mult_INR; simpl; lra).
  split; [|split].
  - pose proof (nth_tile (linspace0 (2 * PI) (2 * n + 2)) (n + 1) i j 0) as T. rewrite length_linspace in T. rewrite T by auto.
    rewrite nth_linspace by auto. rewrite IN. field. lra.
  - rewrite nth_rep by (auto; rewrite map_length; lia). apply (nth_map_in acos x i 0 0). lia.
  - rewrite (nth_map_in (fun w => w * (PI / (INR n + 1))) _ _ 0 0) by (rewrite length_rep, Lg; nia).
    rewrite nth_rep by (auto; lia). apply Rmult_comm.
Qed.
