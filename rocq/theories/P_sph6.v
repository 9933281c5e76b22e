(** sh_rotation_matrix: every block carries the harmonics of its order. *)
From Verif Require Import Base BaseFacts M_utils M_sph0 M_sph P_sph1 P_sph2 P_sph3 P_sph4 P_sph5.

Lemma mapM_ok_map {A B} (f : A -> res B) (g : A -> B) l :
  (forall x, In x l -> f x = Ok (g x)) -> mapM f l = Ok (map g l).
Proof.
  induction l as [|x l IH]; intros H; simpl; auto.
  rewrite H by (left; auto). simpl. rewrite IH by (intros; apply H; right; auto). reflexivity.
Qed.

Lemma mget_in M i j : (0 <= i < Z.of_nat (nr M))%Z -> (0 <= j < Z.of_nat (nc M))%Z ->
  mget M i j = Ok (ent M (Z.to_nat i) (Z.to_nat j)).
Proof.
  intros Hi Hj. unfold mget. destruct (Z.ltb_spec i 0); [lia|]. destruct (Z.ltb_spec j 0); [lia|].
  destruct (Z.leb_spec 0 i); [|lia]. destruct (Z.ltb_spec i (Z.of_nat (nr M))); [|lia].
  destruct (Z.leb_spec 0 j); [|lia]. destruct (Z.ltb_spec j (Z.of_nat (nc M))); [|lia]. reflexivity.
Qed.

(** entries of a block by signed degrees *)
Definition bz (l : nat) (B : mat) (m n : Z) : R :=
  ent B (Z.to_nat (m + Z.of_nat l)) (Z.to_nat (n + Z.of_nat l)).

Lemma r1_col M i : (i = -1 \/ i = 0 \/ i = 1)%Z ->
  mget (rot_r1 M) (i + 1) 2 = Ok (comp (mv3 M ex) i) /\
  mget (rot_r1 M) (i + 1) 0 = Ok (comp (mv3 M ey) i) /\
  mget (rot_r1 M) (i + 1) 1 = Ok (comp (mv3 M ez) i).
Proof.
  intros H. rewrite !mget_in by (simpl; lia).
  destruct H as [->|[->| ->]]; simpl; unfold rot_r1, m3_ent, perm_yzx, comp, mv3, ex, ey, ez, dot3; simpl; repeat split;
    f_equal; unfold vx, vy, vz; simpl; ring.
Qed.

(** the source terms of column n for order l = L+1 *)
Definition Pc (M : M3) (L : nat) (B : mat) (n : Z) (i a : Z) : R :=
  if (n =? - Z.of_nat (S L))%Z then
    comp (mv3 M ex) i * bz L B a (- Z.of_nat L) + comp (mv3 M ey) i * bz L B a (Z.of_nat L)
  else if (n =? Z.of_nat (S L))%Z then
    comp (mv3 M ex) i * bz L B a (Z.of_nat L) - comp (mv3 M ey) i * bz L B a (- Z.of_nat L)
  else comp (mv3 M ez) i * bz L B a n.

Lemma rot_p_ok M L B i a n : nr B = (2 * L + 1)%nat -> nc B = (2 * L + 1)%nat ->
  (i = -1 \/ i = 0 \/ i = 1)%Z -> (Z.abs a <= Z.of_nat L)%Z -> (Z.abs n <= Z.of_nat (S L))%Z ->
  rot_p i (Z.of_nat (S L)) a n (rot_r1 M) B = Ok (Pc M L B n i a).
Proof.
  intros Hr Hc Hi Ha Hn. destruct (r1_col M i Hi) as (E1 & E2 & E3).
  unfold rot_p. rewrite E1, E2, E3. cbn [bind]. unfold Pc.
  assert (G : forall b, (Z.abs b <= Z.of_nat L)%Z -> mget B (a + Z.of_nat (S L) - 1) (b + Z.of_nat L) = Ok (bz L B a b)).
  { intros b Hb. rewrite mget_in by lia. unfold bz. do 2 f_equal; lia. }
  destruct (Z.eqb_spec n (- Z.of_nat (S L))) as [->|N1].
  - replace 0%Z with (- Z.of_nat L + Z.of_nat L)%Z at 1 by lia. rewrite G by lia. cbn [bind].
    replace (2 * Z.of_nat (S L) - 2)%Z with (Z.of_nat L + Z.of_nat L)%Z by lia. rewrite G by lia. cbn [bind]. reflexivity.
  - destruct (Z.eqb_spec n (Z.of_nat (S L))) as [->|N2].
    + replace (2 * Z.of_nat (S L) - 2)%Z with (Z.of_nat L + Z.of_nat L)%Z by lia. rewrite G by lia. cbn [bind].
      replace 0%Z with (- Z.of_nat L + Z.of_nat L)%Z at 1 by lia. rewrite G by lia. cbn [bind]. reflexivity.
    + replace (n + Z.of_nat (S L) - 1)%Z with (n + Z.of_nat L)%Z by lia. rewrite G by lia. reflexivity.
Qed.

Lemma mul_nz x f y : (x <> 0 -> f = Ok y) -> mul_if_nonzero x f = Ok (x * y).
Proof.
  intros H. unfold mul_if_nonzero. destruct (Reqb x 0) eqn:E.
  - apply Reqb_true in E. subst. f_equal. ring.
  - apply Reqb_false in E. rewrite H by auto. reflexivity.
Qed.

Definition rdenom (L : nat) (n : Z) : R :=
  if (Z.abs n =? Z.of_nat (S L))%Z then (2 * INR L + 2) * (2 * INR L + 1) else (INR L + 1) * (INR L + 1) - IZR n * IZR n.
Definition kap (L : nat) (n : Z) : R := sqrt ((2 * INR L + 1) * (2 * INR L + 3) / rdenom L n).

Lemma rdenom_pos L n : (Z.abs n <= Z.of_nat (S L))%Z -> 0 < rdenom L n.
Proof.
  intros H. pose proof (pos_INR L). unfold rdenom. destruct (Z.eqb_spec (Z.abs n) (Z.of_nat (S L))) as [E|E].
  - apply Rmult_lt_0_compat; lra.
  - assert (A : IZR (Z.abs n) < INR L + 1).
    { rewrite <- S_INR, INR_IZR_INZ. apply IZR_lt. lia. }
    rewrite abs_IZR in A. apply Rabs_def2 in A. nra.
Qed.
Lemma sqrt_scale a b D d : 0 <= a -> 0 < D -> 0 < d -> b = a -> sqrt (b / d) = sqrt (a / D) * sqrt (D / d).
Proof.
  intros Ha HD Hd ->. rewrite <- sqrt_mult_alt.
  - f_equal. field. lra.
  - apply Rmult_le_pos; [lra|]. left. apply Rinv_0_lt_compat. lra.
Qed.
Lemma rdenom_IZR L n : (Z.abs n <= Z.of_nat (S L))%Z ->
  IZR (if (Z.abs n =? Z.of_nat (S L))%Z then (2 * Z.of_nat (S L)) * (2 * Z.of_nat (S L) - 1)
       else (Z.of_nat (S L)) * (Z.of_nat (S L)) - n * n)%Z = rdenom L n.
Proof.
  intros H. unfold rdenom. destruct (Z.abs n =? Z.of_nat (S L))%Z.
  - rewrite mult_IZR, minus_IZR, !mult_IZR, <- INR_IZR_INZ, S_INR. ring.
  - rewrite minus_IZR, !mult_IZR, <- INR_IZR_INZ, S_INR. ring.
Qed.

Lemma sqrt_neq0 x : sqrt x <> 0 -> 0 < x.
Proof. intros H. destruct (Rlt_dec 0 x) as [|N]; auto. elim H. apply sqrt_neg_0. lra. Qed.

Lemma al_kap L n k : (Z.abs n <= Z.of_nat (S L))%Z -> (k <= S L)%nat ->
  sqrt (IZR (Z.of_nat (S L) * Z.of_nat (S L) - Z.of_nat k * Z.of_nat k) / rdenom L n) = al L k * kap L n.
Proof.
  intros Hn Hk. unfold al, kap. pose proof (pos_INR L). pose proof (pos_INR k). apply le_INR in Hk. rewrite S_INR in Hk.
  apply sqrt_scale; [nra|nra|apply rdenom_pos; auto|].
  rewrite minus_IZR, !mult_IZR, <- !INR_IZR_INZ, S_INR. ring.
Qed.
Lemma aA_kap L n k : (Z.abs n <= Z.of_nat (S L))%Z -> (k <= L)%nat ->
  sqrt (((1 + 0) * (IZR (Z.of_nat (S L) + Z.of_nat (S k)) - 1) * IZR (Z.of_nat (S L) + Z.of_nat (S k))) / rdenom L n) = aA L k * kap L n.
Proof.
  intros Hn Hk. unfold aA, kap. pose proof (pos_INR L). pose proof (pos_INR k).
  apply sqrt_scale; [nra|nra|apply rdenom_pos; auto|].
  rewrite plus_IZR, <- !INR_IZR_INZ, !S_INR. ring.
Qed.
Lemma aB_kap L n k : (Z.abs n <= Z.of_nat (S L))%Z -> (k <= S L)%nat ->
  sqrt ((IZR (Z.of_nat (S L) - Z.of_nat k) - 1) * IZR (Z.of_nat (S L) - Z.of_nat k) / rdenom L n) = aB L (S k) * kap L n.
Proof.
  intros Hn Hk. unfold aB, kap. pose proof (pos_INR L). pose proof (pos_INR k).
  assert (NN : 0 <= (INR L - INR (S k) + 1) * (INR L - INR (S k) + 2)).
  { rewrite S_INR. destruct (Nat.eq_dec k (S L)) as [->|N].
    - rewrite S_INR. nra.
    - assert (K : INR k <= INR L) by (apply le_INR; lia). nra. }
  apply sqrt_scale; [exact NN|nra|apply rdenom_pos; auto|].
  rewrite minus_IZR, <- !INR_IZR_INZ, !S_INR. ring.
Qed.
Lemma aB_kap0 L n : (Z.abs n <= Z.of_nat (S L))%Z ->
  sqrt ((1 + 1) * (IZR (Z.of_nat (S L) + 0) - 1) * IZR (Z.of_nat (S L) + 0) / rdenom L n) = sqrt 2 * (aB L 1 * kap L n).
Proof.
  intros Hn. unfold aB, kap. pose proof (pos_INR L).
  rewrite <- (sqrt_scale ((INR L - INR 1 + 1) * (INR L - INR 1 + 2)) ((INR L - INR 1 + 1) * (INR L - INR 1 + 2)) _ (rdenom L n));
    [|simpl; nra|nra|apply rdenom_pos; auto|reflexivity].
  rewrite <- sqrt_mult_alt by lra. f_equal. rewrite Z.add_0_r, <- INR_IZR_INZ, S_INR. simpl. unfold Rdiv. ring.
Qed.

Lemma kap_nz L n : (Z.abs n <= Z.of_nat (S L))%Z -> 0 < kap L n.
Proof.
  intros H. pose proof (pos_INR L). apply sqrt_lt_R0. apply Rdiv_lt_0_compat; [nra|apply rdenom_pos; auto].
Qed.

Lemma rot_entry_ok M L B m n : (1 <= L)%nat -> nr B = (2 * L + 1)%nat -> nc B = (2 * L + 1)%nat ->
  (Z.abs m <= Z.of_nat (S L))%Z -> (Z.abs n <= Z.of_nat (S L))%Z ->
  rot_entry (Z.of_nat (S L)) m n (rot_r1 M) B = Ok (kap L n * rowP L m (Pc M L B n)).
Proof.
  intros HL Hr Hc Hm Hn. pose proof (kap_nz L n Hn) as KP. pose proof sqrt2_pos as S2.
  assert (RP : forall i a, (i = -1 \/ i = 0 \/ i = 1)%Z -> (Z.abs a <= Z.of_nat L)%Z ->
     rot_p i (Z.of_nat (S L)) a n (rot_r1 M) B = Ok (Pc M L B n i a)) by (intros; apply rot_p_ok; auto).
  unfold rot_entry. cbv zeta. rewrite rdenom_IZR by auto.
  destruct (zcases m) as [->|[[k ->]|[k ->]]].
  - (* m = 0 *)
    change (0 =? 0)%Z with true. cbv iota. change (Z.abs 0) with 0%Z.
    pose proof (al_kap L n 0 Hn ltac:(lia)) as A0. change (Z.of_nat 0) with 0%Z in A0. rewrite A0, aB_kap0 by auto.
    rewrite (mul_nz _ _ (Pc M L B n 0 0)) by (intros _; unfold rot_u; rewrite RP by (auto; lia); reflexivity).
    cbn [bind].
    rewrite (mul_nz _ _ (Pc M L B n 1 1 + Pc M L B n (-1) (-1))).
    2: { intros _. unfold rot_v. change (0 =? 0)%Z with true. cbv iota. rewrite RP by (auto; lia). cbn [bind]. rewrite RP by (auto; lia). reflexivity. }
    cbn [bind].
    rewrite (mul_nz _ _ 0) by (intros _; unfold rot_w; simpl; reflexivity).
    cbn [bind]. f_equal. unfold rowP. change (0 =? 0)%Z with true. cbv iota. 
    replace (aB L 1 / sqrt 2) with (aB L 1 * (sqrt 2 / 2)) by (rewrite <- sqrt2_inv; reflexivity). field.
  - (* m > 0 *)
    destruct (Z.eqb_spec (Z.of_nat (S k)) 0) as [E|_]; [lia|].
    replace (Z.abs (Z.of_nat (S k))) with (Z.of_nat (S k)) by lia.
    rewrite (al_kap L n (S k)) by (auto; lia). rewrite aA_kap by (auto; lia). rewrite (aB_kap L n (S k)) by (auto; lia).
    assert (V : rot_v (Z.of_nat (S L)) (Z.of_nat (S k)) n (rot_r1 M) B =
       Ok (if (Z.of_nat (S k) =? 1)%Z then sqrt 2 * Pc M L B n 1 0 else Pc M L B n 1 (Z.of_nat (S k) - 1) - Pc M L B n (-1) (1 - Z.of_nat (S k)))).
    { unfold rot_v. destruct (Z.eqb_spec (Z.of_nat (S k)) 0); [lia|]. destruct (Z.ltb_spec 0 (Z.of_nat (S k))); [|lia].
      rewrite RP by (auto; lia). cbn [bind]. destruct (Z.eqb_spec (Z.of_nat (S k)) 1) as [E|E].
      - rewrite E. f_equal. simpl (1 - 1)%Z. ring.
      - rewrite RP by (auto; lia). reflexivity. }
    rewrite (mul_nz _ _ (Pc M L B n 0 (Z.of_nat (S k)))).
    2: { intros NZ. unfold rot_u. apply RP; auto. assert (k <> L); [|lia]. intros ->. apply NZ. rewrite al_end. ring. }
    cbn [bind]. rewrite (mul_nz _ _ _ (fun _ => V)). cbn [bind].
    rewrite (mul_nz _ _ (Pc M L B n 1 (Z.of_nat (S k) + 1) + Pc M L B n (-1) (- Z.of_nat (S k) - 1))).
    2: { intros NZ. assert (k <> L) by (intros ->; apply NZ; rewrite aB_end2; ring).
         assert (S k <> L) by (intros <-; apply NZ; rewrite aB_end1; ring).
         unfold rot_w. destruct (Z.ltb_spec 0 (Z.of_nat (S k))); [|lia]. rewrite RP by (auto; lia). cbn [bind]. rewrite RP by (auto; lia). reflexivity. }
    cbn [bind]. f_equal. unfold rowP. destruct (Z.eqb_spec (Z.of_nat (S k)) 0); [lia|]. destruct (Z.ltb_spec 0 (Z.of_nat (S k))); [|lia].
    replace (Z.abs_nat (Z.of_nat (S k))) with (S k) by lia. replace (S k - 1)%nat with k by lia. replace (S k + 1)%nat with (S (S k)) by lia.
    match goal with |- context [if ?b then sqrt 2 * ?x else ?y] => generalize (if b then sqrt 2 * x else y) end. intros t. field.
  - (* m < 0 *)
    destruct (Z.eqb_spec (- Z.of_nat (S k)) 0) as [E|_]; [lia|].
    replace (Z.abs (- Z.of_nat (S k))) with (Z.of_nat (S k)) by lia.
    replace (- Z.of_nat (S k) * - Z.of_nat (S k))%Z with (Z.of_nat (S k) * Z.of_nat (S k))%Z by ring.
    rewrite (al_kap L n (S k)) by (auto; lia). rewrite aA_kap by (auto; lia). rewrite (aB_kap L n (S k)) by (auto; lia).
    assert (V : rot_v (Z.of_nat (S L)) (- Z.of_nat (S k)) n (rot_r1 M) B =
       Ok (if (- Z.of_nat (S k) =? -1)%Z then sqrt 2 * Pc M L B n (-1) 0 else
           Pc M L B n 1 (- Z.of_nat (S k) + 1) + Pc M L B n (-1) (- - Z.of_nat (S k) - 1))).
    { unfold rot_v. destruct (Z.eqb_spec (- Z.of_nat (S k)) 0); [lia|]. destruct (Z.ltb_spec 0 (- Z.of_nat (S k))); [lia|].
      rewrite RP by (auto; lia). cbn [bind]. destruct (Z.eqb_spec (- Z.of_nat (S k)) (-1)) as [E|E].
      - rewrite E. f_equal. simpl (- -1 - 1)%Z. ring.
      - rewrite RP by (auto; lia). cbn [bind]. f_equal. ring. }
    rewrite (mul_nz _ _ (Pc M L B n 0 (- Z.of_nat (S k)))).
    2: { intros NZ. unfold rot_u. apply RP; auto. assert (k <> L); [|lia]. intros ->. apply NZ. rewrite al_end. ring. }
    cbn [bind]. rewrite (mul_nz _ _ _ (fun _ => V)). cbn [bind].
    rewrite (mul_nz _ _ (Pc M L B n 1 (- Z.of_nat (S k) - 1) - Pc M L B n (-1) (1 - - Z.of_nat (S k)))).
    2: { intros NZ. assert (k <> L) by (intros ->; apply NZ; rewrite aB_end2; ring).
         assert (S k <> L) by (intros <-; apply NZ; rewrite aB_end1; ring).
         unfold rot_w. destruct (Z.ltb_spec 0 (- Z.of_nat (S k))); [lia|]. destruct (Z.ltb_spec (- Z.of_nat (S k)) 0); [|lia].
         rewrite RP by (auto; lia). cbn [bind]. rewrite RP by (auto; lia). reflexivity. }
    cbn [bind]. f_equal. unfold rowP. destruct (Z.eqb_spec (- Z.of_nat (S k)) 0); [lia|]. destruct (Z.ltb_spec 0 (- Z.of_nat (S k))); [lia|].
    replace (Z.abs_nat (- Z.of_nat (S k))) with (S k) by lia. replace (S k - 1)%nat with k by lia. replace (S k + 1)%nat with (S (S k)) by lia.
    match goal with |- context [if ?b then sqrt 2 * ?x else ?y] => generalize (if b then sqrt 2 * x else y) end. intros t. field.
Qed.

Definition block_ok (M : M3) (l : nat) (B : mat) : Prop :=
  nr B = (2 * l + 1)%nat /\ nc B = (2 * l + 1)%nat /\ carries M l (bz l B).

Lemma kap_al L n : (Z.abs n <= Z.of_nat L)%Z -> al L (Z.abs_nat n) * kap L n = 1.
Proof.
  intros Hn. rewrite <- al_kap by lia. rewrite <- sqrt_1. f_equal. 
  assert (P : 0 < rdenom L n) by (apply rdenom_pos; lia). unfold rdenom in *.
  destruct (Z.eqb_spec (Z.abs n) (Z.of_nat (S L))) as [E|E]; [lia|].
  rewrite minus_IZR, !mult_IZR, <- INR_IZR_INZ, S_INR in *.
  assert (A : IZR (Z.of_nat (Z.abs_nat n)) * IZR (Z.of_nat (Z.abs_nat n)) = IZR n * IZR n).
  { rewrite <- !mult_IZR. f_equal. lia. }
  rewrite A. field. lra.
Qed.
Lemma kap_aA L n : Z.abs n = Z.of_nat (S L) -> aA L L * kap L n = 1.
Proof.
  intros Hn. rewrite <- aA_kap by lia. transitivity (sqrt 1); [f_equal|apply sqrt_1].
  unfold rdenom. rewrite Hn, Z.eqb_refl. rewrite plus_IZR, <- !INR_IZR_INZ, S_INR. pose proof (pos_INR L). field. lra.
Qed.

Lemma rot_block_ok M L B : ortho3 M -> (1 <= L)%nat -> block_ok M L B ->
  exists B', rot_block (S L) (rot_r1 M) B = Ok B' /\ block_ok M (S L) B'.
Proof.
  intros O HL (Hr & Hc & HB). unfold rot_block.
  set (ms := map _ _).
  assert (MS : forall m, In m ms -> (Z.abs m <= Z.of_nat (S L))%Z).
  { intros m H. unfold ms in H. apply in_map_iff in H. destruct H as (i & <- & Hi). apply in_seq in Hi. lia. }
  rewrite (mapM_ok_map _ (fun m => map (fun n => kap L n * rowP L m (Pc M L B n)) ms)).
  2: { intros m Hm. apply mapM_ok_map. intros n Hn. apply rot_entry_ok; auto. }
  cbn [bind]. eexists. split; [reflexivity|]. split; [reflexivity|]. split; [reflexivity|].
  assert (EN : forall m n, (Z.abs m <= Z.of_nat (S L))%Z -> (Z.abs n <= Z.of_nat (S L))%Z ->
    bz (S L) (mat_of_rows (2 * S L + 1) (2 * S L + 1) (map (fun m => map (fun n => kap L n * rowP L m (Pc M L B n)) ms) ms)) m n
    = kap L n * rowP L m (Pc M L B n)).
  { intros m n Hm Hn. unfold bz, mat_of_rows. cbn [ent].
    assert (LN : length ms = (2 * S L + 1)%nat) by (unfold ms; rewrite map_length, seq_length; auto).
    assert (NT : forall q, (Z.abs q <= Z.of_nat (S L))%Z -> nth (Z.to_nat (q + Z.of_nat (S L))) ms 0%Z = q).
    { intros q Hq. unfold ms. rewrite nth_map_seq by lia. lia. }
    rewrite (nth_map_in _ ms _ [] 0%Z) by (rewrite LN; lia). rewrite NT by auto.
    rewrite (nth_map_in _ ms _ 0 0%Z) by (rewrite LN; lia). rewrite NT by auto. reflexivity. }
  destruct L as [|L]; [lia|].
  set (B' := mat_of_rows _ _ _) in *.
  assert (C : carries M (S (S L)) (fun m n => kap (S L) n * rowP (S L) m (Pc M (S L) B n))).
  { apply (carries_step M L (bz (S L) B)); auto.
    - intros m n Hn. rewrite <- Rmult_assoc, kap_al, Rmult_1_l by auto. apply rowP_ext. intros i a. unfold Pc.
      destruct (Z.eqb_spec n (- Z.of_nat (S (S L)))); [lia|]. destruct (Z.eqb_spec n (Z.of_nat (S (S L)))); [lia|]. reflexivity.
    - intros m. rewrite <- Rmult_assoc, kap_aA, Rmult_1_l by lia. apply rowP_ext. intros i a. unfold Pc.
      destruct (Z.eqb_spec (Z.of_nat (S (S L))) (- Z.of_nat (S (S L)))); [lia|]. rewrite Z.eqb_refl. reflexivity.
    - intros m. rewrite <- Rmult_assoc, kap_aA, Rmult_1_l by lia. apply rowP_ext. intros i a. unfold Pc.
      rewrite Z.eqb_refl. reflexivity. }
  intros v n Hn. rewrite (C v n Hn). apply zs_ext. intros m Hm. rewrite EN by auto. reflexivity.
Qed.

Lemma block0_ok M : block_ok M 0 (Mat 1 1 (fun _ _ => 1)).
Proof.
  split; [reflexivity|]. split; [reflexivity|]. intros v n Hn. assert (n = 0%Z) by lia. subst n.
  unfold zs. simpl rsum. simpl (0 - 0)%Z. unfold bz; cbn [ent]. rewrite !Yz_0. unfold tc, Hc. rewrite !Q_diag. simpl ck. ring.
Qed.
Lemma block1_ok M : ortho3 M -> block_ok M 1 (rot_r1 M).
Proof.
  intros [O _]. split; [reflexivity|]. split; [reflexivity|]. intros v n Hn.
  destruct (Yz1 v) as (A1 & A2 & A3). destruct (Yz1 (mv3 M v)) as (B1 & B2 & B3).
  assert (E : mv3 (tr3 M) (mv3 M v) = v) by (rewrite <- mv3_mm3, O, mv3_eye; auto).
  assert (EX : vx v = vx (row1 M) * vx (mv3 M v) + vx (row2 M) * vy (mv3 M v) + vx (row3 M) * vz (mv3 M v))
    by (rewrite <- E at 1; reflexivity).
  assert (EY : vy v = vy (row1 M) * vx (mv3 M v) + vy (row2 M) * vy (mv3 M v) + vy (row3 M) * vz (mv3 M v))
    by (rewrite <- E at 1; reflexivity).
  assert (EZ : vz v = vz (row1 M) * vx (mv3 M v) + vz (row2 M) * vy (mv3 M v) + vz (row3 M) * vz (mv3 M v))
    by (rewrite <- E at 1; reflexivity).
  rewrite zs_split. cbn [rsum]. change (Z.of_nat 1) with 1%Z. change (- (1))%Z with (-1)%Z.
  rewrite B1, B2, B3. generalize dependent (mv3 M v). intros u _ _ _ _ EX EY EZ.
  assert (CS : n = (-1)%Z \/ n = 0%Z \/ n = 1%Z) by lia.
  unfold bz, rot_r1. cbn [ent].
  destruct CS as [->|[->| ->]].
  - rewrite A1, EY. change (Z.to_nat (-1 + Z.of_nat 1)) with 0%nat. change (Z.to_nat (0 + Z.of_nat 1)) with 1%nat. change (Z.to_nat (1 + Z.of_nat 1)) with 2%nat.
    unfold m3_ent, perm_yzx. ring.
  - rewrite A2, EZ. change (Z.to_nat (-1 + Z.of_nat 1)) with 0%nat. change (Z.to_nat (0 + Z.of_nat 1)) with 1%nat. change (Z.to_nat (1 + Z.of_nat 1)) with 2%nat.
    unfold m3_ent, perm_yzx. ring.
  - rewrite A3, EX. change (Z.to_nat (-1 + Z.of_nat 1)) with 0%nat. change (Z.to_nat (0 + Z.of_nat 1)) with 1%nat. change (Z.to_nat (1 + Z.of_nat 1)) with 2%nat.
    unfold m3_ent, perm_yzx. ring.
Qed.

Lemma rot_loop_ok M : ortho3 M -> forall k L B, (1 <= L)%nat -> block_ok M L B ->
  exists bs, rot_loop k (S L) (rot_r1 M) B = Ok bs /\ length bs = k /\
    forall i, (i < k)%nat -> block_ok M (S L + i) (nth i bs (meye 0)).
Proof.
  intros O. induction k as [|k IH]; intros L B HL HB; simpl rot_loop.
  - exists []. split; [reflexivity|]. split; [reflexivity|]. intros; lia.
  - destruct (rot_block_ok M L B O HL HB) as (B' & E & HB'). rewrite E. cbn [bind].
    destruct (IH (S L) B' ltac:(lia) HB') as (bs & E' & Hl & HI). rewrite E'. cbn [bind].
    eexists. split; [reflexivity|]. split; [simpl; lia|]. intros [|i] Hi.
    + simpl. replace (S (L + 0)) with (S L) by lia. auto.
    + simpl nth. replace (S L + S i)%nat with (S (S L) + i)%nat by lia. apply HI. lia.
Qed.

Lemma rot_blocks_ok M N : ortho3 M -> (1 <= N)%nat ->
  exists bs, rot_blocks N M = Ok bs /\ length bs = S N /\
    forall l, (l <= N)%nat -> block_ok M l (nth l bs (meye 0)).
Proof.
  intros O HN. unfold rot_blocks.
  destruct (rot_loop_ok M O (N - 1) 1 (rot_r1 M) ltac:(lia) (block1_ok M O)) as (bs & E & Hl & HI).
  rewrite E. cbn [bind]. eexists. split; [reflexivity|]. split; [simpl; lia|].
  intros [|[|l]] H; simpl nth.
  - apply block0_ok.
  - apply block1_ok. auto.
  - replace (S (S l)) with (2 + l)%nat by lia. apply HI. lia.
Qed.

(** ** the block-diagonal matrix *)
Lemma block_diag_ok (K n0 : nat) (bs : list mat) (M0 : mat) :
  nr M0 = K -> nc M0 = K ->
  (forall i, (i < length bs)%nat -> nr (nth i bs (meye 0)) = (2 * (n0 + i) + 1)%nat /\ nc (nth i bs (meye 0)) = (2 * (n0 + i) + 1)%nat) ->
  ((n0 + length bs) * (n0 + length bs) <= K)%nat ->
  exists R, block_diag M0 (n0 * n0) bs = Ok R /\ nr R = K /\ nc R = K /\
    (forall k i j, (k < length bs)%nat -> (i < 2 * (n0 + k) + 1)%nat -> (j < 2 * (n0 + k) + 1)%nat ->
       ent R ((n0 + k) * (n0 + k) + i) ((n0 + k) * (n0 + k) + j) = ent (nth k bs (meye 0)) i j) /\
    (forall i j, (forall k, (k < length bs)%nat ->
        ~ ((n0 + k) * (n0 + k) <= i < (n0 + k) * (n0 + k) + (2 * (n0 + k) + 1) /\
           (n0 + k) * (n0 + k) <= j < (n0 + k) * (n0 + k) + (2 * (n0 + k) + 1))%nat) -> ent R i j = ent M0 i j).
Proof.
  revert n0 M0. induction bs as [|b bs IH]; intros n0 M0 Hr Hc Hb HK.
  - exists M0. split; [reflexivity|]. split; [auto|]. split; [auto|]. split; [intros k i j Hk; simpl in Hk; lia|auto].
  - pose proof (Hb O ltac:(simpl; lia)) as [Br Bc]. cbn [nth] in Br, Bc. rewrite Nat.add_0_r in Br, Bc.
    simpl length in HK. cbn [block_diag].
    assert (SZ : (n0 * n0 + (2 * n0 + 1) = S n0 * S n0)%nat) by ring.
    assert (SK : (S n0 * S n0 <= K)%nat) by (eapply Nat.le_trans; [|exact HK]; apply Nat.mul_le_mono; lia).
    assert (ES : exists M1, set_block M0 (n0 * n0) b = Ok M1 /\ nr M1 = K /\ nc M1 = K /\
       forall i j, ent M1 i j = if (Nat.leb (n0 * n0) i && Nat.ltb i (n0 * n0 + (2 * n0 + 1)) && Nat.leb (n0 * n0) j && Nat.ltb j (n0 * n0 + (2 * n0 + 1)))%bool
            then ent b (i - n0 * n0) (j - n0 * n0) else ent M0 i j).
    { unfold set_block. rewrite Bc, Br, Hr. rewrite (Nat.min_l (n0 * n0 + (2 * n0 + 1)) K), (Nat.min_l (n0 * n0) K) by lia.
      replace (n0 * n0 + (2 * n0 + 1) - n0 * n0)%nat with (2 * n0 + 1)%nat by lia. rewrite !Nat.eqb_refl. cbn [andb orb].
      eexists. split; [reflexivity|]. cbn [nr nc ent]. auto. }
    destruct ES as (M1 & E1 & R1 & C1 & EN). rewrite E1. cbn [bind]. rewrite Bc, SZ.
    destruct (IH (S n0) M1 R1 C1) as (Rm & E2 & RR & RC & HD & HO).
    + intros i Hi. specialize (Hb (S i) ltac:(simpl; lia)). simpl nth in Hb. replace (S n0 + i)%nat with (n0 + S i)%nat by lia. exact Hb.
    + replace (S n0 + length bs)%nat with (n0 + S (length bs))%nat by lia. exact HK.
    + exists Rm. split; [auto|]. split; [auto|]. split; [auto|]. split.
      * intros [|k] i j Hk Hi Hj.
        -- simpl nth. rewrite Nat.add_0_r in *. rewrite HO.
           ++ rewrite EN.
              destruct (Nat.leb_spec (n0 * n0) (n0 * n0 + i)); [|lia]. destruct (Nat.ltb_spec (n0 * n0 + i) (n0 * n0 + (2 * n0 + 1))); [|lia].
              destruct (Nat.leb_spec (n0 * n0) (n0 * n0 + j)); [|lia]. destruct (Nat.ltb_spec (n0 * n0 + j) (n0 * n0 + (2 * n0 + 1))); [|lia].
              simpl. f_equal; lia.
           ++ intros k Hk'. assert (S n0 * S n0 <= (S n0 + k) * (S n0 + k))%nat by (apply Nat.mul_le_mono; lia). lia.
        -- simpl nth. replace (n0 + S k)%nat with (S n0 + k)%nat by lia. apply HD; simpl in Hk; lia.
      * intros i j H. rewrite HO.
        -- rewrite EN. specialize (H O ltac:(simpl; lia)). rewrite Nat.add_0_r in H.
           destruct (Nat.leb_spec (n0 * n0) i); cbn [andb]; auto. destruct (Nat.ltb_spec i (n0 * n0 + (2 * n0 + 1))); cbn [andb]; auto.
           destruct (Nat.leb_spec (n0 * n0) j); cbn [andb]; auto. destruct (Nat.ltb_spec j (n0 * n0 + (2 * n0 + 1))); cbn [andb]; auto.
           elim H. lia.
        -- intros k Hk. specialize (H (S k) ltac:(simpl; lia)). replace (n0 + S k)%nat with (S n0 + k)%nat in H by lia. exact H.
Qed.
