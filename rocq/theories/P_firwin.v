(** firwin2: value, linearity, energy. *)
From Verif Require Import Base BaseFacts M_process M_sph M_parsa3 M_decoder4 M_firwin S_parsa3 S_firwin P_parsa13 P_magls1 P_magls4 P_ctf6.
Require Import Lra Lia.
Open Scope R_scope.

(** * Interpolation *)
Lemma filter_none {A} (p : A -> bool) l : (forall x, In x l -> p x = false) -> filter p l = [].
Proof. induction l as [|a l IH]; intros H; cbn; [reflexivity|]. rewrite H by (left; reflexivity). apply IH. intros x X. apply H. right. exact X. Qed.
Lemma filter_all {A} (p : A -> bool) l : (forall x, In x l -> p x = true) -> filter p l = l.
Proof. induction l as [|a l IH]; intros H; cbn; [reflexivity|]. rewrite H by (left; reflexivity). f_equal. apply IH. intros x X. apply H. right. exact X. Qed.
Lemma filter_count (f : nat -> R) x n m : (m <= n)%nat -> (forall i, (i < n)%nat -> (f i <= x <-> (i < m)%nat)) ->
  length (filter (fun p => Rleb p x) (map f (seq 0 n))) = m.
Proof.
  intros L H. replace n with (m + (n - m))%nat by lia. rewrite seq_app, map_app, filter_app, app_length.
  rewrite filter_all, filter_none.
  - rewrite map_length, seq_length. cbn. lia.
  - intros y Y. apply in_map_iff in Y. destruct Y as (i & <- & I). apply in_seq in I. unfold Rleb. destruct (Rle_dec (f i) x) as [C|]; [|reflexivity].
    apply H in C; lia.
  - intros y Y. apply in_map_iff in Y. destruct Y as (i & <- & I). apply in_seq in I. unfold Rleb. destruct (Rle_dec (f i) x) as [C|C]; [reflexivity|].
    exfalso. apply C. apply H; lia.
Qed.
Lemma grid_nth n i : (i < n)%nat -> nth i (unit_grid n) 0 = INR i / INR (n - 1).
Proof. intros H. unfold unit_grid. rewrite nth_map_seq by exact H. unfold Rdiv. ring. Qed.
Lemma grid_length n : length (unit_grid n) = n.
Proof. unfold unit_grid. rewrite map_length, seq_length. reflexivity. Qed.
Lemma grid_count n m x : (2 <= n)%nat -> (1 <= m <= n)%nat -> INR (m - 1) / INR (n - 1) <= x -> (m = n \/ x < INR m / INR (n - 1)) ->
  length (filter (fun p => Rleb p x) (unit_grid n)) = m.
Proof.
  intros N Hm A B. assert (P : 0 < INR (n - 1)) by (apply lt_0_INR; lia). assert (Q : 0 < / INR (n - 1)) by (apply Rinv_0_lt_compat; exact P).
  unfold unit_grid. apply filter_count; [lia|]. intros i I. split.
  - intros C. destruct B as [->|B]; [exact I|]. apply INR_lt. apply (Rmult_lt_reg_r (/ INR (n - 1))); [exact Q|]. unfold Rdiv in *. lra.
  - intros C. apply Rle_trans with (2 := A). unfold Rdiv. rewrite Rmult_1_l. apply Rmult_le_compat_r; [lra|]. apply le_INR. lia.
Qed.
Lemma interp_line g : (2 <= length g)%nat -> broken_line g (fun x => np_interp x (unit_grid (length g)) g).
Proof.
  intros N j s J S. set (n := length g) in *. assert (P : 0 < INR (n - 1)) by (apply lt_0_INR; lia).
  assert (Q : 0 < / INR (n - 1)) by (apply Rinv_0_lt_compat; exact P).
  unfold np_interp. destruct (Req_dec s 1) as [->|S1].
  - rewrite (grid_count n (j + 2)).
    + replace (j + 2)%nat with (Datatypes.S (j + 1)) by lia. rewrite grid_length. destruct (Nat.eqb_spec (Datatypes.S (j + 1)) n); [ring|].
      rewrite (grid_nth n (j + 1)) by lia. rewrite plus_INR. simpl (INR 1). ring.
    + exact N.
    + lia.
    + replace (j + 2 - 1)%nat with (j + 1)%nat by lia. rewrite plus_INR. simpl (INR 1). lra.
    + destruct (Nat.eq_dec (j + 2) n) as [E|E]; [left; exact E|right]. unfold Rdiv. apply Rmult_lt_compat_r; [exact Q|]. rewrite plus_INR. simpl (INR 2). lra.
  - rewrite (grid_count n (j + 1)).
    + replace (j + 1)%nat with (Datatypes.S j) by lia. rewrite grid_length. destruct (Nat.eqb_spec (Datatypes.S j) n); [lia|].
      rewrite (grid_nth n j), (grid_nth n (Datatypes.S j)) by lia. rewrite S_INR. field. split; lra.
    + exact N.
    + lia.
    + replace (j + 1 - 1)%nat with j by lia. unfold Rdiv. apply Rmult_le_compat_r; lra.
    + right. unfold Rdiv. apply Rmult_lt_compat_r; [exact Q|]. rewrite plus_INR. simpl (INR 1). lra.
Qed.
(** every point of [0,1] is on a piece *)
Lemma on_piece n x : (2 <= n)%nat -> 0 <= x <= 1 -> exists j s, (j + 1 < n)%nat /\ 0 <= s <= 1 /\ x = (INR j + s) / INR (n - 1).
Proof.
  intros N X. assert (P : 0 < INR (n - 1)) by (apply lt_0_INR; lia).
  destruct (Req_dec x 1) as [->|X1].
  - exists (n - 2)%nat, 1. split; [lia|]. split; [lra|]. replace (n - 1)%nat with (n - 2 + 1)%nat by lia. rewrite plus_INR. simpl (INR 1). field.
    replace (INR (n - 2) + 1) with (INR (n - 1)); [lra|]. replace (n - 1)%nat with (n - 2 + 1)%nat by lia. rewrite plus_INR. reflexivity.
  - set (y := x * INR (n - 1)). assert (Y : 0 <= y) by (unfold y; apply Rmult_le_pos; lra).
    assert (Y1 : y < INR (n - 1)) by (unfold y; rewrite <- (Rmult_1_l (INR (n - 1))) at 2; apply Rmult_lt_compat_r; lra).
    destruct (archimed y) as [A1 A2]. set (z := (up y - 1)%Z). assert (Z1 : IZR z <= y) by (unfold z; rewrite minus_IZR; lra). assert (Z2 : y < IZR z + 1) by (unfold z; rewrite minus_IZR; lra).
    assert (Z0 : (0 <= z)%Z) by (assert (-1 < z)%Z; [apply lt_IZR; lra|lia]).
    exists (Z.to_nat z), (y - IZR z). assert (E : INR (Z.to_nat z) = IZR z) by (rewrite INR_IZR_INZ, Z2Nat.id by exact Z0; reflexivity).
    split; [|split].
    + apply INR_lt. rewrite plus_INR, E. simpl (INR 1).
      assert (INR (n - 1) + 1 = INR n) by (rewrite <- S_INR; f_equal; lia).
      assert (z < Z.of_nat (n - 1))%Z by (apply lt_IZR; rewrite <- INR_IZR_INZ; lra).
      assert (IZR z <= INR (n - 1) - 1). { rewrite INR_IZR_INZ. rewrite <- minus_IZR. apply IZR_le. lia. } lra.
    + lra.
    + rewrite E. unfold y. field. lra.
Qed.
(** linear in the gains *)
Definition unit_list (n j : nat) : list R := map (fun i => if Nat.eqb i j then 1 else 0) (seq 0 n).
Lemma unit_length n j : length (unit_list n j) = n.
Proof. unfold unit_list. rewrite map_length, seq_length. reflexivity. Qed.
Lemma unit_sum n (g : list R) i : length g = n -> nth i g 0 = rsum n (fun j => nth j g 0 * nth i (unit_list n j) 0).
Proof.
  intros L. destruct (Nat.lt_ge_cases i n) as [I|I].
  - rewrite (rsum_single _ i); [|exact I|].
    + unfold unit_list. rewrite nth_map_seq by exact I. rewrite Nat.eqb_refl. ring.
    + intros j J NE. unfold unit_list. rewrite nth_map_seq by exact I. rewrite (proj2 (Nat.eqb_neq _ _)) by auto. ring.
  - rewrite nth_overflow by lia. symmetry. apply rsum_0. intros j J.
    rewrite (nth_overflow (unit_list n j)) by (rewrite unit_length; lia). ring.
Qed.
Lemma interp_linear x xp g n : length g = n ->
  np_interp x xp g = rsum n (fun j => nth j g 0 * np_interp x xp (unit_list n j)).
Proof.
  intros L. unfold np_interp. destruct (length (filter _ xp)) as [|k]; [apply unit_sum; exact L|].
  destruct (Nat.eqb _ _); [apply unit_sum; exact L|].
  set (d := nth (Datatypes.S k) xp 0 - nth k xp 0). set (v := x - nth k xp 0).
  rewrite (unit_sum n g (Datatypes.S k) L), (unit_sum n g k L) at 1.
  rewrite (unit_sum n g k L) at 1.
  transitivity (/ d * v * rsum n (fun j => nth j g 0 * nth (Datatypes.S k) (unit_list n j) 0) + (1 - / d * v) * rsum n (fun j => nth j g 0 * nth k (unit_list n j) 0)); [unfold Rdiv; ring|].
  rewrite <- !rsum_scal, <- rsum_plus. apply rsum_ext. intros j J. unfold Rdiv. ring.
Qed.

(** * The filter *)
Lemma kernel_ext n f g v : (forall k, (k < n)%nat -> f k = g k) -> kernel n f v = kernel n g v.
Proof. intros H. unfold kernel. f_equal. apply rsum_ext. intros k K. rewrite H by exact K. reflexivity. Qed.
Lemma kernel_sum n m (a : nat -> R) (f : nat -> nat -> R) v : kernel n (fun k => rsum m (fun j => a j * f j k)) v = rsum m (fun j => a j * kernel n (f j) v).
Proof.
  unfold kernel. transitivity (rsum n (fun k => rsum m (fun j => / INR n * (a j * f j k * cos (2 * PI * INR k * IZR v / INR n))))).
  - rewrite <- rsum_scal. apply rsum_ext. intros k K. rewrite rsum_scal. f_equal. rewrite <- rsum_scal_r. reflexivity.
  - rewrite rsum_swap. apply rsum_ext. intros j J. rewrite <- !rsum_scal. apply rsum_ext. intros k K. ring.
Qed.
Lemma kernel_even n f v : kernel n f (- v) = kernel n f v.
Proof.
  unfold kernel. f_equal. apply rsum_ext. intros k K. f_equal. rewrite opp_IZR.
  replace (2 * PI * INR k * - IZR v / INR n) with (- (2 * PI * INR k * IZR v / INR n)) by (unfold Rdiv; ring). apply cos_neg.
Qed.
Lemma folded M G : (1 <= M)%nat -> (forall k, (1 <= k < M)%nat -> G (2 * M - k)%nat = G k) ->
  rsum (2 * M) G = G 0%nat + G M + rsum (M - 1) (fun i => 2 * G (Datatypes.S i)).
Proof.
  intros HM HG. replace (2 * M)%nat with (Datatypes.S ((M - 1) + Datatypes.S (M - 1)))%nat by lia.
  rewrite rsum_shift, rsum_app, rsum_shift. replace (Datatypes.S (M - 1 + 0)) with M by lia.
  assert (E : rsum (M - 1) (fun i => G (Datatypes.S (M - 1 + Datatypes.S i))) = rsum (M - 1) (fun i => G (Datatypes.S i))).
  { rewrite rsum_rev. apply rsum_ext. intros i I. rewrite <- (HG (Datatypes.S i)) by lia. f_equal. lia. }
  rewrite E, rsum_scal. ring.
Qed.
Lemma irfft_kernel M (F : nat -> R) c t : (1 <= M)%nat -> (t < 2 * M)%nat ->
  nth t (irfft (map (fun k => (F k * cos (- INR c * PI * (INR k / INR M)), F k * sin (- INR c * PI * (INR k / INR M)))) (seq 0 (1 + M)))) 0 =
  kernel (2 * M) (fun k => F (Nat.min k (2 * M - k))) (Z.of_nat t - Z.of_nat c).
Proof.
  intros HM Ht. assert (M0 : INR M <> 0) by (apply not_0_INR; lia). assert (N2 : INR (2 * M) = 2 * INR M) by (rewrite mult_INR; simpl (INR 2); ring).
  unfold irfft. rewrite map_length, seq_length. replace (1 + M - 1)%nat with M by lia. rewrite nth_map_seq by exact Ht.
  unfold kernel. f_equal.
  set (v := (Z.of_nat t - Z.of_nat c)%Z). assert (V : IZR v = INR t - INR c) by (unfold v; rewrite minus_IZR, <- !INR_IZR_INZ; reflexivity).
  rewrite (folded M _ HM).
  2:{ intros k K. replace (Nat.min (2 * M - k) (2 * M - (2 * M - k))) with (Nat.min k (2 * M - k)) by lia. f_equal.
      rewrite minus_INR by lia. replace (2 * PI * (INR (2 * M) - INR k) * IZR v / INR (2 * M)) with (- (2 * PI * INR k * IZR v / INR (2 * M)) + 2 * PI * IZR v) by (rewrite N2; field; exact M0).
      rewrite period_Z_cos. apply cos_neg. }
  assert (A : forall k, (k <= M)%nat -> nth k (map (fun k => (F k * cos (- INR c * PI * (INR k / INR M)), F k * sin (- INR c * PI * (INR k / INR M)))) (seq 0 (1 + M))) (0, 0) =
             (F k * cos (- INR c * PI * (INR k / INR M)), F k * sin (- INR c * PI * (INR k / INR M)))).
  { intros k K. rewrite nth_map_seq by lia. reflexivity. }
  rewrite !A by lia. cbn [fst snd]. f_equal; [f_equal|].
  - simpl (INR 0). replace (Nat.min 0 (2 * M - 0)) with 0%nat by lia. f_equal.
    replace (- INR c * PI * (0 / INR M)) with 0 by (field; exact M0). replace (2 * PI * 0 * IZR v / INR (2 * M)) with 0 by (unfold Rdiv; ring). reflexivity.
  - replace (Nat.min M (2 * M - M)) with M by lia.
    replace (2 * PI * INR M * IZR v / INR (2 * M)) with (PI * INR t + - (INR c * PI)) by (rewrite V, N2; field; exact M0).
    rewrite cos_plus, <- pow_m1_cos. replace (sin (PI * INR t)) with 0.
    + replace (- INR c * PI * (INR M / INR M)) with (- (INR c * PI)) by (field; exact M0). ring.
    + symmetry. apply sin_eq_0_1. exists (Z.of_nat t). rewrite <- INR_IZR_INZ. ring.
  - apply rsum_ext. intros i I. rewrite !A by lia. cbn [fst snd]. replace (Nat.min (Datatypes.S i) (2 * M - Datatypes.S i)) with (Datatypes.S i) by lia.
    set (k := Datatypes.S i). rewrite mult_INR.
    replace (2 * PI * INR k * IZR v / INR (2 * M)) with (- INR c * PI * (INR k / INR M) + 2 * PI * (INR k * INR t) / INR (2 * M)) by (rewrite V, N2; field; exact M0).
    rewrite cos_plus. ring.
Qed.
Lemma hamming_nth nt t : (t < nt)%nat -> nth t (hamming (Z.of_nat nt)) 0 = hamming_at nt t.
Proof.
  intros T. unfold hamming, hamming_at. destruct (Z.ltb_spec (Z.of_nat nt) 1); [lia|].
  destruct (Z.eqb_spec (Z.of_nat nt) 1) as [E|E].
  - assert (nt = 1%nat) by lia. subst. assert (t = 0%nat) by lia. subst. reflexivity.
  - destruct (Nat.eqb_spec nt 1); [lia|]. rewrite Nat2Z.id, nth_map_seq by exact T.
    assert (INR (nt - 1) <> 0) by (apply not_0_INR; lia).
    replace (IZR (Z.of_nat nt - 1)) with (INR (nt - 1)) by (rewrite INR_IZR_INZ; f_equal; lia).
    replace (IZR (1 - Z.of_nat nt + 2 * Z.of_nat t)) with (2 * INR t - INR (nt - 1)).
    2:{ rewrite !INR_IZR_INZ, <- mult_IZR, <- minus_IZR. f_equal. lia. }
    replace (PI * (2 * INR t - INR (nt - 1)) / INR (nt - 1)) with (2 * PI * INR t / INR (nt - 1) - PI) by (field; assumption).
    rewrite cos_minus, cos_PI, sin_PI. ring.
Qed.
Lemma hamming_len nt : (1 <= nt)%nat -> length (hamming (Z.of_nat nt)) = nt.
Proof.
  intros H. unfold hamming. destruct (Z.ltb_spec (Z.of_nat nt) 1); [lia|]. destruct (Z.eqb_spec (Z.of_nat nt) 1) as [E|E].
  - cbn. lia.
  - rewrite map_length, seq_length. lia.
Qed.
Lemma log2_next nt : (1 <= nt)%nat -> next_power nt (2 ^ Nat.log2_up nt).
Proof.
  intros H. exists (Nat.log2_up nt). split; [reflexivity|]. split.
  - destruct (Nat.eq_dec nt 1) as [->|N]; [cbn; lia|]. apply Nat.log2_up_spec. lia.
  - intros e E. apply Nat.log2_up_le_pow2; [lia|exact E].
Qed.
Definition design_at (nt n : nat) (g : list R) (t : nat) : R :=
  let M := (2 ^ Nat.log2_up nt)%nat in
  hamming_at nt t * kernel (2 * M) (mirrored M (fun x => np_interp x (unit_grid n) g)) (Z.of_nat t - Z.of_nat ((nt - 1) / 2)).
Lemma firwin2_value nt g : Nat.odd nt = true -> (2 <= length g)%nat ->
  firwin2 nt g = Ok (map (design_at nt (length g) g) (seq 0 nt)).
Proof.
  intros O N. unfold firwin2. destruct (Nat.eqb_spec (length g) 0); [lia|]. destruct (Nat.eqb_spec (length g) 1); [lia|].
  rewrite <- Nat.negb_odd, O. cbn [negb andb]. destruct (Nat.eqb_spec nt 0) as [->|N0]; [discriminate|]. cbv zeta.
  set (M := (2 ^ Nat.log2_up nt)%nat). assert (HM : (nt <= M)%nat) by (destruct (log2_next nt ltac:(lia)) as (e & _ & L & _); exact L).
  f_equal. pose (f := fun x => np_interp x (unit_grid (length g)) g).
  assert (M0 : INR M <> 0) by (apply not_0_INR; lia).
  apply Nat.odd_spec in O. destruct O as [c C]. assert (Ec : ((nt - 1) / 2 = c)%nat) by (rewrite C; replace (2 * c + 1 - 1)%nat with (c * 2)%nat by lia; apply Nat.div_mul; lia).
  assert (E : map (fun q => let a := - ((INR nt - 1) / 2) * PI * fst q in (snd q * cos a, snd q * sin a))
                  (combine (unit_grid (1 + M)) (map (fun v => np_interp v (unit_grid (length g)) g) (unit_grid (1 + M)))) =
              map (fun k => ((fun k => f (INR k / INR M)) k * cos (- INR c * PI * (INR k / INR M)), (fun k => f (INR k / INR M)) k * sin (- INR c * PI * (INR k / INR M)))) (seq 0 (1 + M))).
  { set (G := unit_grid (length g)). unfold unit_grid. rewrite map_map.
    assert (CM : forall (A B : nat -> R) l, combine (map A l) (map B l) = map (fun i => (A i, B i)) l) by (intros A B l; induction l as [|a l IH]; cbn; [|rewrite IH]; reflexivity).
    rewrite CM, map_map. apply map_ext. intros k. cbn [fst snd]. replace (1 + M - 1)%nat with M by lia.
    replace (INR k * (1 / INR M)) with (INR k / INR M) by (unfold Rdiv; ring).
    replace ((INR nt - 1) / 2) with (INR c) by (rewrite C, plus_INR, mult_INR; simpl (INR 1); simpl (INR 2); field). reflexivity. }
  cbv zeta in E. rewrite E. apply (nth_ext _ _ 0 0).
  - rewrite !map_length, combine_length, firstn_length, hamming_len by lia. unfold irfft. rewrite !map_length, !seq_length. lia.
  - intros t T. rewrite map_length, combine_length, firstn_length, hamming_len in T by lia.
    rewrite nth_map_seq by lia. rewrite (nth_map_in _ _ _ _ (0, 0)).
    2:{ rewrite combine_length, firstn_length, hamming_len by lia. lia. }
    rewrite combine_nth.
    2:{ rewrite firstn_length, hamming_len by lia. unfold irfft. rewrite !map_length, !seq_length. lia. }
    cbn [fst snd]. rewrite hamming_nth by lia.
    assert (FN : forall l, nth t (firstn nt l) 0 = nth t l 0).
    { intros l. destruct (Nat.lt_ge_cases t (length l)) as [L|L].
      - rewrite <- (firstn_skipn nt l) at 2. rewrite app_nth1; [reflexivity|]. rewrite firstn_length. lia.
      - rewrite !nth_overflow by (rewrite ?firstn_length; lia). reflexivity. }
    rewrite FN, irfft_kernel by lia. unfold design_at. cbv zeta. fold M. rewrite Ec. rewrite Rmult_comm. f_equal.
Qed.
Lemma firwin2_design nt g : Nat.odd nt = true -> (2 <= length g)%nat -> exists h, firwin2 nt g = Ok h /\ windowed_design nt g h.
Proof.
  intros O N. eexists. split; [apply firwin2_value; assumption|]. split; [rewrite map_length, seq_length; reflexivity|].
  exists (2 ^ Nat.log2_up nt)%nat, (fun x => np_interp x (unit_grid (length g)) g). split; [apply log2_next; destruct nt; [discriminate|lia]|].
  split; [apply interp_line; exact N|]. intros t T. rewrite nth_map_seq by exact T. reflexivity.
Qed.
