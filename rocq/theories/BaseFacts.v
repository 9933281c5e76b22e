(** Lemmas about the vocabulary of Base.v. *)
From Verif Require Import Base.
Open Scope R_scope.

(** * Booleans *)
Lemma Rltb_true x y : Rltb x y = true <-> x < y.
Proof. unfold Rltb; destruct (Rlt_dec x y); split; intros; try easy. Qed.
Lemma Rltb_false x y : Rltb x y = false <-> y <= x.
Proof. unfold Rltb; destruct (Rlt_dec x y); split; intros; try easy; lra. Qed.
Lemma Rleb_true x y : Rleb x y = true <-> x <= y.
Proof. unfold Rleb; destruct (Rle_dec x y); split; intros; try easy. Qed.
Lemma Rleb_false x y : Rleb x y = false <-> y < x.
Proof. unfold Rleb; destruct (Rle_dec x y); split; intros; try easy; lra. Qed.
Lemma Reqb_true x y : Reqb x y = true <-> x = y.
Proof. unfold Reqb; destruct (Req_EM_T x y); split; intros; try easy. Qed.
Lemma Reqb_false x y : Reqb x y = false <-> x <> y.
Proof. unfold Reqb; destruct (Req_EM_T x y); split; intros; try easy. Qed.

(** * rsum *)
Lemma rsum_ext n f g : (forall i, (i < n)%nat -> f i = g i) -> rsum n f = rsum n g.
Proof.
  induction n as [|n IH]; intros H; [reflexivity|]. cbn [rsum].
  rewrite IH by (intros; apply H; lia). rewrite H by lia. reflexivity.
Qed.

Lemma rsum_plus n f g : rsum n (fun i => f i + g i) = rsum n f + rsum n g.
Proof. induction n as [|n IH]; cbn [rsum]; [lra|]. rewrite IH; lra. Qed.

Lemma rsum_minus n f g : rsum n (fun i => f i - g i) = rsum n f - rsum n g.
Proof. induction n as [|n IH]; cbn [rsum]; [lra|]. rewrite IH; lra. Qed.

Lemma rsum_scal n c f : rsum n (fun i => c * f i) = c * rsum n f.
Proof. induction n as [|n IH]; cbn [rsum]; [lra|]. rewrite IH; lra. Qed.

Lemma rsum_scal_r n c f : rsum n (fun i => f i * c) = rsum n f * c.
Proof. induction n as [|n IH]; cbn [rsum]; [lra|]. rewrite IH; lra. Qed.

Lemma rsum_opp n f : rsum n (fun i => - f i) = - rsum n f.
Proof. induction n as [|n IH]; cbn [rsum]; [lra|]. rewrite IH; lra. Qed.

Lemma rsum_const n c : rsum n (fun _ => c) = INR n * c.
Proof. induction n as [|n IH]; cbn [rsum]; [simpl; lra|]. rewrite IH, S_INR; lra. Qed.

Lemma rsum_0 n f : (forall i, (i < n)%nat -> f i = 0) -> rsum n f = 0.
Proof. intros H. rewrite (rsum_ext n f (fun _ => 0)) by exact H. rewrite rsum_const. lra. Qed.

Lemma rsum_swap n m f :
  rsum n (fun i => rsum m (fun j => f i j)) = rsum m (fun j => rsum n (fun i => f i j)).
Proof.
  induction n as [|n IH]; cbn [rsum].
  - rewrite rsum_0; auto.
  - rewrite IH. rewrite <- rsum_plus. reflexivity.
Qed.

Lemma rsum_shift n f : rsum (S n) f = f 0%nat + rsum n (fun i => f (S i)).
Proof.
  induction n as [|n IH]; [cbn; lra|].
  change (rsum (S (S n)) f) with (rsum (S n) f + f (S n)). rewrite IH. cbn [rsum]. lra.
Qed.

Lemma rsum_app n m f : rsum (n + m) f = rsum n f + rsum m (fun i => f (n + i)%nat).
Proof.
  induction m as [|m IH]; cbn [rsum].
  - rewrite Nat.add_0_r. lra.
  - rewrite Nat.add_succ_r. cbn [rsum]. rewrite IH. lra.
Qed.

Lemma rsum_single n k f :
  (k < n)%nat -> (forall i, (i < n)%nat -> i <> k -> f i = 0) -> rsum n f = f k.
Proof.
  induction n as [|n IH]; intros Hk H; [lia|]. cbn [rsum].
  destruct (Nat.eq_dec k n) as [->|Hne].
  - rewrite rsum_0; [lra|]. intros i Hi; apply H; lia.
  - rewrite IH; [|lia|intros; apply H; lia]. rewrite (H n); [lra|lia|lia].
Qed.

Lemma rsum_delta_l n k f : (k < n)%nat -> rsum n (fun i => delta k i * f i) = f k.
Proof.
  intros Hk. rewrite (rsum_single n k); auto.
  - unfold delta. rewrite Nat.eqb_refl. lra.
  - intros i _ Hne. unfold delta.
    replace (Nat.eqb k i) with false by (symmetry; apply Nat.eqb_neq; auto). lra.
Qed.

Lemma rsum_delta_r n k f : (k < n)%nat -> rsum n (fun i => f i * delta i k) = f k.
Proof.
  intros Hk. rewrite (rsum_single n k); auto.
  - unfold delta. rewrite Nat.eqb_refl. lra.
  - intros i _ Hne. unfold delta.
    replace (Nat.eqb i k) with false by (symmetry; apply Nat.eqb_neq; auto). lra.
Qed.

Lemma delta_sym i j : delta i j = delta j i.
Proof. unfold delta. rewrite Nat.eqb_sym. reflexivity. Qed.
Lemma delta_same i : delta i i = 1.
Proof. unfold delta. rewrite Nat.eqb_refl. reflexivity. Qed.
Lemma delta_diff i j : i <> j -> delta i j = 0.
Proof. intros H. unfold delta. apply Nat.eqb_neq in H. rewrite H. reflexivity. Qed.

Lemma rsum_nonneg n f : (forall i, (i < n)%nat -> 0 <= f i) -> 0 <= rsum n f.
Proof.
  induction n as [|n IH]; intros H; cbn [rsum]; [lra|].
  assert (0 <= rsum n f) by (apply IH; intros; apply H; lia).
  assert (0 <= f n) by (apply H; lia). lra.
Qed.

Lemma rsum_le n f g : (forall i, (i < n)%nat -> f i <= g i) -> rsum n f <= rsum n g.
Proof.
  induction n as [|n IH]; intros H; cbn [rsum]; [lra|].
  assert (rsum n f <= rsum n g) by (apply IH; intros; apply H; lia).
  assert (f n <= g n) by (apply H; lia). lra.
Qed.

Lemma rsum_abs n f : Rabs (rsum n f) <= rsum n (fun i => Rabs (f i)).
Proof.
  induction n as [|n IH]; cbn [rsum]; [rewrite Rabs_R0; lra|].
  eapply Rle_trans; [apply Rabs_triang|]. lra.
Qed.

Lemma rsum_ge_term n f k :
  (forall i, (i < n)%nat -> 0 <= f i) -> (k < n)%nat -> f k <= rsum n f.
Proof.
  induction n as [|n IH]; intros H Hk; [lia|]. cbn [rsum].
  destruct (Nat.eq_dec k n) as [->|Hne].
  - assert (0 <= rsum n f) by (apply rsum_nonneg; intros; apply H; lia). lra.
  - assert (f k <= rsum n f) by (apply IH; [intros; apply H|]; lia).
    assert (0 <= f n) by (apply H; lia). lra.
Qed.

Lemma rsum_nonneg_0 n f :
  (forall i, (i < n)%nat -> 0 <= f i) -> rsum n f = 0 -> forall i, (i < n)%nat -> f i = 0.
Proof.
  intros H H0 i Hi. assert (f i <= rsum n f) by (apply rsum_ge_term; auto).
  specialize (H i Hi). lra.
Qed.

Lemma rsum_rev n f : rsum n f = rsum n (fun i => f (n - 1 - i)%nat).
Proof.
  induction n as [|n IH]; [reflexivity|].
  rewrite (rsum_shift n (fun i => f (S n - 1 - i)%nat)). cbn [rsum].
  replace (S n - 1 - 0)%nat with n by lia. rewrite IH. rewrite Rplus_comm. f_equal.
  apply rsum_ext. intros i Hi. f_equal. lia.
Qed.

Lemma rsum_mult n m f g :
  rsum n f * rsum m g = rsum n (fun i => rsum m (fun j => f i * g j)).
Proof.
  rewrite <- rsum_scal_r. apply rsum_ext. intros i _. rewrite rsum_scal. reflexivity.
Qed.

Lemma rsum_extend n m f :
  (n <= m)%nat -> (forall i, (n <= i < m)%nat -> f i = 0) -> rsum m f = rsum n f.
Proof.
  intros Hnm H. replace m with (n + (m - n))%nat by lia. rewrite rsum_app.
  rewrite (rsum_0 (m - n)); [lra|]. intros i Hi. apply H. lia.
Qed.

(** Cauchy-Schwarz *)
Lemma rsum_sq_nonneg n f : 0 <= rsum n (fun i => f i * f i).
Proof. apply rsum_nonneg. intros i _. apply Rle_0_sqr. Qed.

Lemma rsum_cauchy_schwarz n f g :
  Rsqr (rsum n (fun i => f i * g i)) <=
  rsum n (fun i => f i * f i) * rsum n (fun i => g i * g i).
Proof.
  set (a := rsum n (fun i => f i * f i)). set (b := rsum n (fun i => f i * g i)).
  set (c := rsum n (fun i => g i * g i)).
  assert (Ha : 0 <= a) by apply rsum_sq_nonneg.
  assert (Hq : forall t, 0 <= a * t * t - 2 * b * t + c).
  { intros t. replace (a * t * t - 2 * b * t + c)
      with (rsum n (fun i => (t * f i - g i) * (t * f i - g i))).
    - apply rsum_nonneg. intros i _. apply Rle_0_sqr.
    - unfold a, b, c.
      rewrite (rsum_ext n _ (fun i => (t * t) * (f i * f i) + ((- 2 * t) * (f i * g i) + g i * g i)))
        by (intros; ring).
      rewrite rsum_plus, rsum_plus, !rsum_scal. ring. }
  destruct (Req_dec a 0) as [Ea|Na].
  - assert (Hf : forall i, (i < n)%nat -> f i = 0).
    { intros i Hi. assert (f i * f i = 0) as E.
      { apply (rsum_nonneg_0 n (fun i => f i * f i)); auto. intros; apply Rle_0_sqr. }
      apply Rmult_integral in E. tauto. }
    assert (b = 0) as ->.
    { apply rsum_0. intros i Hi. rewrite Hf; auto. lra. }
    rewrite Ea. unfold Rsqr. lra.
  - specialize (Hq (b / a)). unfold Rsqr.
    assert (a > 0) by lra.
    assert (a * (b / a) * (b / a) - 2 * b * (b / a) + c = c - b * b / a) as E by (field; lra).
    rewrite E in Hq. assert (b * b / a <= c) by lra.
    apply Rmult_le_compat_l with (r := a) in H0; [|lra].
    replace (a * (b * b / a)) with (b * b) in H0 by (field; lra). lra.
Qed.

(** * lsum *)
Lemma lsum_app l m : lsum (l ++ m) = lsum l + lsum m.
Proof. induction l as [|x l IH]; cbn [lsum app]; [lra|]. rewrite IH; lra. Qed.

Lemma lsum_nth l : lsum l = rsum (length l) (fun i => nth i l 0).
Proof.
  induction l as [|x l IH]; [reflexivity|]. cbn [length lsum].
  rewrite rsum_shift. cbn [nth]. rewrite IH. reflexivity.
Qed.

Lemma lsum_map_seq f n : lsum (map f (seq 0 n)) = rsum n f.
Proof.
  induction n as [|n IH]; [reflexivity|].
  rewrite seq_S, map_app, lsum_app, IH. cbn. lra.
Qed.

Lemma lsum_map_scal {A} c (f : A -> R) l : lsum (map (fun x => c * f x) l) = c * lsum (map f l).
Proof. induction l as [|x l IH]; cbn; [lra|]. rewrite IH; lra. Qed.

Lemma lsum_map_plus {A} (f g : A -> R) l :
  lsum (map (fun x => f x + g x) l) = lsum (map f l) + lsum (map g l).
Proof. induction l as [|x l IH]; cbn; [lra|]. rewrite IH; lra. Qed.

Lemma lsum_nonneg l : (forall x, In x l -> 0 <= x) -> 0 <= lsum l.
Proof.
  induction l as [|x l IH]; intros H; cbn; [lra|].
  assert (0 <= x) by (apply H; left; auto).
  assert (0 <= lsum l) by (apply IH; intros; apply H; right; auto). lra.
Qed.

(** * Slices *)
Lemma norm_idx_le len i : (norm_idx len i <= len)%nat.
Proof. unfold norm_idx. destruct (Z.ltb_spec i 0); lia. Qed.

Lemma norm_idx_nonneg len i : (0 <= i <= Z.of_nat len)%Z -> norm_idx len i = Z.to_nat i.
Proof. intros H. unfold norm_idx. destruct (Z.ltb_spec i 0); lia. Qed.

Lemma norm_idx_nat len i : (i <= len)%nat -> norm_idx len (Z.of_nat i) = i.
Proof. intros H. rewrite norm_idx_nonneg by lia. lia. Qed.

Lemma length_slice {A} (l : list A) a b :
  length (slice l a b) = (norm_idx (length l) b - norm_idx (length l) a)%nat.
Proof.
  unfold slice. rewrite firstn_length, skipn_length.
  pose proof (norm_idx_le (length l) b). lia.
Qed.

Lemma nth_firstn {A} (l : list A) n i d : (i < n)%nat -> nth i (firstn n l) d = nth i l d.
Proof.
  revert n i; induction l as [|x l IH]; intros n i H; destruct n; try lia.
  - destruct i; reflexivity.
  - destruct i; cbn; [reflexivity|]. apply IH. lia.
Qed.

Lemma nth_skipn {A} (l : list A) n i d : nth i (skipn n l) d = nth (n + i) l d.
Proof.
  revert n i; induction l as [|x l IH]; intros n i; destruct n; cbn [skipn nth plus]; auto.
  destruct i; reflexivity.
Qed.

Lemma nth_slice {A} (l : list A) a b i d :
  (i < norm_idx (length l) b - norm_idx (length l) a)%nat ->
  nth i (slice l a b) d = nth (norm_idx (length l) a + i) l d.
Proof. intros H. unfold slice. rewrite nth_firstn by auto. apply nth_skipn. Qed.

Lemma nth_map_in {A B} (f : A -> B) l i d d' : (i < length l)%nat -> nth i (map f l) d = f (nth i l d').
Proof. revert i; induction l as [|x l IH]; intros [|i] H; cbn in *; auto; try lia. apply IH; lia. Qed.
Lemma nth_map_seq {B} (f : nat -> B) n i d : (i < n)%nat -> nth i (map f (seq 0 n)) d = f i.
Proof. intros H. rewrite (nth_map_in f (seq 0 n) i d 0%nat) by (rewrite seq_length; auto). rewrite seq_nth; auto. Qed.
Lemma nth_repeat_in {A} (x : A) n i d : (i < n)%nat -> nth i (repeat x n) d = x.
Proof. revert i; induction n as [|n IH]; intros [|i] H; cbn; auto; try lia. apply IH; lia. Qed.

Lemma length_upd {A} (l : list A) i a : length (upd l i a) = length l.
Proof. revert i; induction l as [|x l IH]; intros [|i]; cbn; auto. Qed.

Lemma nth_upd {A} (l : list A) i j a d :
  nth j (upd l i a) d = if (Nat.eqb i j && Nat.ltb i (length l))%bool then a else nth j l d.
Proof.
  revert i j; induction l as [|x l IH]; intros i j.
  - cbn. destruct j; rewrite andb_false_r; reflexivity.
  - destruct i, j; cbn [upd nth length].
    + reflexivity.
    + reflexivity.
    + reflexivity.
    + rewrite IH. reflexivity.
Qed.

Lemma nth_upd_same {A} (l : list A) i a d : (i < length l)%nat -> nth i (upd l i a) d = a.
Proof. intros H. rewrite nth_upd, Nat.eqb_refl. apply Nat.ltb_lt in H. rewrite H. reflexivity. Qed.

Lemma nth_upd_other {A} (l : list A) i j a d : i <> j -> nth j (upd l i a) d = nth j l d.
Proof. intros H. rewrite nth_upd. apply Nat.eqb_neq in H. rewrite H. reflexivity. Qed.

Lemma nth_ext_list {A} (d : A) (l m : list A) :
  length l = length m -> (forall i, (i < length l)%nat -> nth i l d = nth i m d) -> l = m.
Proof.
  revert m; induction l as [|x l IH]; intros [|y m] Hl H; try discriminate; [reflexivity|].
  f_equal.
  - apply (H 0%nat). cbn; lia.
  - apply IH; [cbn in Hl; lia|]. intros i Hi. apply (H (S i)). cbn; lia.
Qed.

Lemma length_slice_set {A} (l : list A) a b v l' :
  slice_set l a b v = Ok l' -> length l' = length l.
Proof.
  unfold slice_set. set (a' := norm_idx (length l) a).
  set (b' := Nat.max a' (norm_idx (length l) b)).
  assert (a' <= length l)%nat by apply norm_idx_le.
  assert (b' <= length l)%nat.
  { pose proof (norm_idx_le (length l) b). unfold b'; lia. }
  assert (a' <= b')%nat by (unfold b'; lia).
  destruct (Nat.eqb_spec (length v) (b' - a')) as [E|E].
  - intros [= <-]. rewrite !app_length, firstn_length, skipn_length. lia.
  - destruct v as [|x [|y v]]; try discriminate. intros [= <-].
    rewrite !app_length, firstn_length, skipn_length, repeat_length. lia.
Qed.

Lemma nth_slice_set {A} (l : list A) (a b : nat) v d i :
  (a <= b <= length l)%nat -> length v = (b - a)%nat ->
  exists l', slice_set l (Z.of_nat a) (Z.of_nat b) v = Ok l' /\ length l' = length l /\
    nth i l' d = if (Nat.leb a i && Nat.ltb i b)%bool then nth (i - a) v d else nth i l d.
Proof.
  intros Hab Hv. unfold slice_set. rewrite !norm_idx_nat by lia.
  replace (Nat.max a b) with b by lia. rewrite Hv, Nat.eqb_refl.
  eexists. split; [reflexivity|]. split.
  { rewrite !app_length, firstn_length, skipn_length. lia. }
  destruct (Nat.leb_spec a i) as [H1|H1]; cbn [andb].
  - rewrite app_nth2; rewrite firstn_length; [|lia].
    replace (i - Nat.min a (length l))%nat with (i - a)%nat by lia.
    destruct (Nat.ltb_spec i b) as [H2|H2].
    + rewrite app_nth1 by lia. reflexivity.
    + rewrite app_nth2 by lia. rewrite nth_skipn. f_equal. lia.
  - rewrite app_nth1 by (rewrite firstn_length; lia). rewrite nth_firstn by lia. reflexivity.
Qed.

(** * Matrices *)
Lemma meq_refl a : meq a a.
Proof. repeat split. Qed.
Lemma meq_sym a b : meq a b -> meq b a.
Proof.
  intros (H1 & H2 & H3). repeat split; auto. intros i j Hi Hj.
  symmetry. apply H3; [rewrite H1|rewrite H2]; auto.
Qed.
Lemma meq_trans a b c : meq a b -> meq b c -> meq a c.
Proof.
  intros (H1 & H2 & H3) (K1 & K2 & K3). repeat split; try congruence.
  intros i j Hi Hj. rewrite H3 by auto. apply K3; [rewrite <- H1|rewrite <- H2]; auto.
Qed.

Lemma matmul_ok a b : nc a = nr b ->
  matmul a b = Ok (Mat (nr a) (nc b) (fun i j => rsum (nc a) (fun k => ent a i k * ent b k j))).
Proof. intros H. unfold matmul. rewrite H, Nat.eqb_refl. reflexivity. Qed.

Lemma rsum_matmul_assoc n m (f : nat -> R) (g : nat -> nat -> R) (h : nat -> R) :
  rsum n (fun k => rsum m (fun l => f l * g l k) * h k) =
  rsum m (fun l => f l * rsum n (fun k => g l k * h k)).
Proof.
  rewrite (rsum_ext n _ (fun k => rsum m (fun l => f l * g l k * h k)))
    by (intros; rewrite <- rsum_scal_r; reflexivity).
  rewrite rsum_swap. apply rsum_ext. intros l _. rewrite <- rsum_scal.
  apply rsum_ext. intros k _. ring.
Qed.

(** * 3-vectors *)
Lemma dot3_comm a b : dot3 a b = dot3 b a.
Proof. unfold dot3; ring. Qed.
Lemma dot3_self_nonneg a : 0 <= dot3 a a.
Proof. unfold dot3. nra. Qed.
Lemma dot3_self_0 a : dot3 a a = 0 -> a = (0, 0, 0).
Proof. destruct a as [[x y] z]; unfold dot3, vx, vy, vz; cbn. intros H.
  assert (x = 0) by nra. assert (y = 0) by nra. assert (z = 0) by nra. congruence. Qed.
Lemma norm3_nonneg a : 0 <= norm3 a.
Proof. apply sqrt_pos. Qed.
Lemma norm3_sq a : norm3 a * norm3 a = dot3 a a.
Proof. apply sqrt_sqrt, dot3_self_nonneg. Qed.
Lemma norm3_0 a : norm3 a = 0 -> a = (0, 0, 0).
Proof. intros H. apply dot3_self_0. rewrite <- norm3_sq, H. ring. Qed.
Lemma norm3_pos a : a <> (0, 0, 0) -> 0 < norm3 a.
Proof. intros H. destruct (norm3_nonneg a) as [|E]; auto. elim H. apply norm3_0. auto. Qed.
Lemma dot3_self_pos a : a <> (0, 0, 0) -> 0 < dot3 a a.
Proof. intros H. rewrite <- norm3_sq. apply norm3_pos in H. nra. Qed.
Lemma lagrange_id a b :
  dot3 (cross3 a b) (cross3 a b) = dot3 a a * dot3 b b - dot3 a b * dot3 a b.
Proof. unfold dot3, cross3, vx, vy, vz; cbn; ring. Qed.
Lemma dot3_cs a b : dot3 a b * dot3 a b <= dot3 a a * dot3 b b.
Proof. pose proof (dot3_self_nonneg (cross3 a b)) as H. rewrite lagrange_id in H. lra. Qed.
