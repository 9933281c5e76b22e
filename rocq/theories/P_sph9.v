(** Orders, normalisations, rotation of signals, B-format, transforms. *)
From Verif Require Import Base BaseFacts M_utils S_utils P_utils M_sig P_sig M_sph0 M_sph S_linalg S_sph
  P_sph1 P_sph2 P_sph3 P_sph4 P_sph5 P_sph6 P_sph7 P_sph8.
Open Scope R_scope.

(** ** ACN *)
Lemma acn_eq n m : degree n m -> exists k, acn n m = (n * n + k)%nat /\ (k < 2 * n + 1)%nat /\ (Z.of_nat k - Z.of_nat n = m)%Z.
Proof. unfold degree, acn. intros H. exists (Z.to_nat (m + Z.of_nat n)). nia. Qed.
Lemma acn_of n k : (k < 2 * n + 1)%nat -> (n * n + k)%nat = acn n (Z.of_nat k - Z.of_nat n) /\ degree n (Z.of_nat k - Z.of_nat n).
Proof. unfold degree, acn. intros H. nia. Qed.

(** ** square roots of channel counts *)
Lemma int_part_unique x z : IZR z <= x < IZR z + 1 -> Int_part x = z.
Proof.
  intros [A B]. destruct (base_Int_part x) as [C D].
  assert (z < Int_part x + 1)%Z by (apply lt_IZR; rewrite plus_IZR; lra).
  assert (Int_part x < z + 1)%Z by (apply lt_IZR; rewrite plus_IZR; lra). lia.
Qed.
Lemma sqrt_nat K : INR (Nat.sqrt K) <= sqrt (INR K) < INR (Nat.sqrt K) + 1.
Proof.
  pose proof (Nat.sqrt_spec K ltac:(lia)) as [A B]. pose proof (pos_INR (Nat.sqrt K)) as P. split.
  - rewrite <- (sqrt_square (INR (Nat.sqrt K))) at 1 by auto. apply sqrt_le_1_alt. rewrite <- mult_INR. apply le_INR; auto.
  - rewrite <- (sqrt_square (INR (Nat.sqrt K) + 1)) by lra. apply sqrt_lt_1_alt. split; [apply pos_INR|].
    rewrite <- S_INR, <- mult_INR. apply lt_INR; auto.
Qed.
Lemma order_of_sqrt K : (1 <= K)%nat -> order_of K = (Z.of_nat (Nat.sqrt K) - 1)%Z.
Proof.
  intros H. unfold order_of, py_int. pose proof (sqrt_nat K) as [A B].
  assert (S1 : (1 <= Nat.sqrt K)%nat) by (change 1%nat with (Nat.sqrt 1); apply Nat.sqrt_le_mono; auto).
  assert (1 <= INR (Nat.sqrt K)) by (change 1 with (INR 1); apply le_INR; auto).
  replace (Rleb 0 (sqrt (INR K) - 1)) with true by (symmetry; apply Rleb_true; lra).
  apply int_part_unique. rewrite minus_IZR, <- INR_IZR_INZ. lra.
Qed.
Lemma sqrt_sq_nat N : Nat.sqrt ((N + 1) ^ 2) = (N + 1)%nat.
Proof. rewrite sq2. apply Nat.sqrt_square. Qed.
Lemma sq_ge1 N : (1 <= (N + 1) ^ 2)%nat. Proof. rewrite sq2. nia. Qed.
Lemma order_of_sq N : order_of ((N + 1) ^ 2) = Z.of_nat N.
Proof. rewrite order_of_sqrt by apply sq_ge1. rewrite sqrt_sq_nat. lia. Qed.
Lemma sqrt_INR_sq N : sqrt (INR ((N + 1) ^ 2)) = INR N + 1.
Proof. rewrite sq2, mult_INR, sqrt_square by apply pos_INR. rewrite plus_INR. reflexivity. Qed.

(** ** weights per order *)
Lemma rpo_length c : length (repeat_per_order c) = (length c * length c)%nat.
Proof. unfold repeat_per_order. apply flat_length. intros; apply repeat_length. Qed.
Lemma rpo_nth c n k d : (n < length c)%nat -> (k < 2 * n + 1)%nat -> nth (n * n + k) (repeat_per_order c) d = nth n c 0.
Proof.
  intros Hn Hk. unfold repeat_per_order. rewrite (flat_nth (fun n => repeat (nth n c 0) (2 * n + 1))); auto; [|intros; apply repeat_length].
  rewrite (nth_indep _ d (nth n c 0)) by (rewrite repeat_length; auto). apply nth_repeat.
Qed.
Lemma rpo_layout (c : list R) : length (repeat_per_order c) = (length c ^ 2)%nat /\
  forall n m, (n < length c)%nat -> degree n m -> nth_error (repeat_per_order c) (acn n m) = nth_error c n.
Proof.
  split; [rewrite rpo_length; simpl; lia|]. intros n m Hn Hd. destruct (acn_eq n m Hd) as (k & -> & Hk & _).
  assert (B : (n * n + k < length (repeat_per_order c))%nat).
  { rewrite rpo_length. assert ((n + 1) * (n + 1) <= length c * length c)%nat by (apply Nat.mul_le_mono; lia). lia. }
  rewrite (nth_error_nth' _ 0 B), (nth_error_nth' _ 0 Hn), rpo_nth by auto. reflexivity.
Qed.
Lemma sh_layout N azi zen : length zen = length azi ->
  exists Y, sh_matrix N azi zen = Ok Y /\ nr Y = length azi /\ nc Y = ((N + 1) ^ 2)%nat /\
    forall i n m, (i < length azi)%nat -> (n <= N)%nat -> degree n m ->
      ent Y i (acn n m) = sh_real n m (nth i azi 0) (nth i zen 0).
Proof.
  intros H. destruct (sh_matrix_ok N azi zen H) as (Y & E & A & B & C). exists Y. split; auto. split; auto. split; auto.
  intros i n m Hi Hn Hd. destruct (acn_eq n m Hd) as (k & -> & Hk & <-). apply C; auto.
Qed.
(** the column numbers are exactly 0 .. (N+1)^2-1 *)
Lemma acn_bijective N : (forall j, (j < (N + 1) ^ 2)%nat -> exists n m, (n <= N)%nat /\ degree n m /\ acn n m = j) /\
  (forall n m, (n <= N)%nat -> degree n m -> (acn n m < (N + 1) ^ 2)%nat) /\
  (forall n m n' m', degree n m -> degree n' m' -> acn n m = acn n' m' -> n = n' /\ m = m').
Proof.
  split; [|split].
  - intros j Hj. destruct (acn_decomp N j Hj) as (n & k & Hn & Hk & ->). destruct (acn_of n k Hk) as [E D]. eauto.
  - intros n m Hn Hd. destruct (acn_eq n m Hd) as (k & -> & Hk & _). rewrite sq2.
    assert ((n + 1) * (n + 1) <= (N + 1) * (N + 1))%nat by (apply Nat.mul_le_mono; lia). lia.
  - intros n m n' m' H H' E. destruct (acn_eq n m H) as (k & A & Hk & <-). destruct (acn_eq n' m' H') as (k' & A' & Hk' & <-).
    rewrite A, A' in E. destruct (acn_uniq n k n' k' Hk Hk' E) as [-> ->]. auto.
Qed.

(** ** N3D and SN3D *)
Lemma conv_ok f F axis N : (axis <= 1)%nat -> chan axis F = ((N + 1) ^ 2)%nat ->
  exists G, conv_norm f F axis = Ok G /\ nr G = nr F /\ nc G = nc F /\
    forall n m t, (n <= N)%nat -> degree n m -> at_chan axis G (acn n m) t = f n * at_chan axis F (acn n m) t.
Proof.
  intros Ha HK. unfold conv_norm. change (match axis with O => nr F | S _ => nc F end) with (chan axis F). rewrite HK, order_of_sq.
  replace (Z.to_nat (Z.of_nat N + 1)) with (N + 1)%nat by lia. set (v := repeat_per_order _).
  assert (VL : length v = ((N + 1) ^ 2)%nat) by (unfold v; rewrite rpo_length, map_length, seq_length, sq2; reflexivity).
  assert (VN : forall n k, (n <= N)%nat -> (k < 2 * n + 1)%nat -> bc1 v (n * n + k) = f n).
  { intros n k Hn Hk. rewrite (bc1_eq v (n * n + k) _ VL).
    - unfold v. rewrite rpo_nth; [|rewrite map_length, seq_length; lia|auto]. rewrite nth_map_seq by lia. reflexivity.
    - rewrite sq2. assert ((n + 1) * (n + 1) <= (N + 1) * (N + 1))%nat by (apply Nat.mul_le_mono; lia). lia. }
  unfold bc_mul. change (match axis with O => nr F | S _ => nc F end) with (chan axis F). rewrite HK, VL, Nat.eqb_refl. cbn [orb].
  eexists. split; [reflexivity|]. cbn [nr nc].
  assert (ES : (if Nat.eqb ((N + 1) ^ 2) 1 then ((N + 1) ^ 2)%nat else ((N + 1) ^ 2)%nat) = ((N + 1) ^ 2)%nat) by (destruct (Nat.eqb _ 1); auto).
  rewrite ES. split; [destruct axis; cbn [chan] in HK; auto|]. split; [destruct axis as [|[|]]; cbn [chan] in HK; auto|].
  intros n m t Hn Hd. destruct (acn_eq n m Hd) as (k & -> & Hk & _).
  assert (E1 : (if Nat.eqb ((N + 1) ^ 2) 1 then O else (n * n + k)%nat) = (n * n + k)%nat).
  { destruct (Nat.eqb_spec ((N + 1) ^ 2) 1) as [E|]; auto. rewrite sq2 in E. assert (N = O) by nia. subst. assert (n = O) by lia. subst. lia. }
  destruct axis as [|[|]]; [| |lia]; cbn [at_chan ent]; rewrite E1, VN by auto; reflexivity.
Qed.

Lemma mat_chan_eq N axis F G : (axis <= 1)%nat -> chan axis F = ((N + 1) ^ 2)%nat -> nr F = nr G -> nc F = nc G ->
  (forall n m t, (n <= N)%nat -> degree n m -> at_chan axis F (acn n m) t = at_chan axis G (acn n m) t) -> meq F G.
Proof.
  intros Ha HK Hr Hc H. split; auto. split; auto. intros i j Hi Hj. destruct (acn_bijective N) as [B _].
  destruct axis as [|[|]]; [| |lia]; cbn [chan at_chan] in *.
  - rewrite HK in Hi. destruct (B i Hi) as (n & m & Hn & Hd & <-). apply H; auto.
  - rewrite HK in Hj. destruct (B j Hj) as (n & m & Hn & Hd & <-). apply H; auto.
Qed.

Lemma norm_roundtrip F axis N : (axis <= 1)%nat -> chan axis F = ((N + 1) ^ 2)%nat ->
  exists G H G' H',
    n3d_to_sn3d F axis = Ok G /\ sn3d_to_n3d G axis = Ok H /\ meq H F /\
    sn3d_to_n3d F axis = Ok G' /\ n3d_to_sn3d G' axis = Ok H' /\ meq H' F /\
    forall n m t, (n <= N)%nat -> degree n m ->
      at_chan axis G (acn n m) t = at_chan axis F (acn n m) t / sqrt (2 * INR n + 1) /\
      at_chan axis G' (acn n m) t = at_chan axis F (acn n m) t * sqrt (2 * INR n + 1).
Proof.
  intros Ha HK. unfold n3d_to_sn3d, sn3d_to_n3d.
  set (f := fun n => 1 / sqrt (2 * INR n + 1)). set (g := fun n => sqrt (2 * INR n + 1)).
  assert (FG : forall n, f n * g n = 1).
  { intros n. unfold f, g. field. apply Rgt_not_eq, sqrt_lt_R0. pose proof (pos_INR n); lra. }
  assert (KC : forall G, nr G = nr F -> nc G = nc F -> chan axis G = ((N + 1) ^ 2)%nat).
  { intros G A B. destruct axis; cbn [chan] in *; congruence. }
  destruct (conv_ok f F axis N Ha HK) as (G & E1 & R1 & C1 & H1).
  destruct (conv_ok g G axis N Ha (KC G R1 C1)) as (H & E2 & R2 & C2 & H2).
  destruct (conv_ok g F axis N Ha HK) as (G' & E3 & R3 & C3 & H3).
  destruct (conv_ok f G' axis N Ha (KC G' R3 C3)) as (H' & E4 & R4 & C4 & H4).
  exists G, H, G', H'. split; auto. split; auto. split; [|split; [auto|split; [auto|split]]].
  - apply (mat_chan_eq N axis); auto; try congruence; [apply KC; congruence|]. intros n m t Hn Hd. rewrite H2, H1 by auto.
    rewrite <- Rmult_assoc, (Rmult_comm (g n)), FG. ring.
  - apply (mat_chan_eq N axis); auto; try congruence; [apply KC; congruence|]. intros n m t Hn Hd. rewrite H4, H3 by auto.
    rewrite <- Rmult_assoc, FG. ring.
  - intros n m t Hn Hd. rewrite H1, H3 by auto. unfold f, g. split; unfold Rdiv; ring.
Qed.

(** other channel counts *)
Lemma conv_nonsquare f F axis : (axis <= 1)%nat -> (5 <= chan axis F)%nat -> ~ is_square (chan axis F) ->
  conv_norm f F axis = Err ValueError.
Proof.
  intros Ha H5 HS. unfold conv_norm, bc_mul. change (match axis with O => nr F | S _ => nc F end) with (chan axis F).
  set (K := chan axis F) in *. rewrite order_of_sqrt by lia.
  replace (Z.to_nat (Z.of_nat (Nat.sqrt K) - 1 + 1)) with (Nat.sqrt K) by lia.
  rewrite rpo_length, map_length, seq_length.
  assert (S2 : (2 <= Nat.sqrt K)%nat) by (change 2%nat with (Nat.sqrt 5); apply Nat.sqrt_le_mono; auto).
  destruct (Nat.eqb_spec (Nat.sqrt K * Nat.sqrt K) K) as [E|_]; [exfalso; apply HS; eexists; eauto|].
  destruct (Nat.eqb_spec (Nat.sqrt K * Nat.sqrt K) 1) as [E|_]; [nia|].
  destruct (Nat.eqb_spec K 1); [lia|]. reflexivity.
Qed.
Lemma conv_two_three f F axis : (axis <= 1)%nat -> (chan axis F = 2 \/ chan axis F = 3)%nat ->
  exists G, conv_norm f F axis = Ok G /\ nr G = nr F /\ nc G = nc F /\ forall i j, ent G i j = f O * ent F i j.
Proof.
  intros Ha HK. unfold conv_norm, bc_mul. change (match axis with O => nr F | S _ => nc F end) with (chan axis F).
  rewrite order_of_sqrt by lia.
  assert (ES : Nat.sqrt (chan axis F) = 1%nat) by (destruct HK as [-> | ->]; reflexivity). rewrite ES.
  replace (Z.to_nat (Z.of_nat 1 - 1 + 1)) with 1%nat by lia. simpl map. unfold repeat_per_order. simpl.
  assert (K1 : Nat.eqb (chan axis F) 1 = false) by (destruct HK as [-> | ->]; reflexivity). rewrite K1.
  rewrite Bool.orb_false_r, Bool.orb_true_r.
  eexists. split; [reflexivity|]. cbn [nr nc ent]. destruct axis as [|[|]]; [| |lia]; cbn [chan] in *; split; auto.
Qed.
