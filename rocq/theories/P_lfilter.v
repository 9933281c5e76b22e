(** Recursive filters. *)
From Coq Require Import Lra Lia.
From Verif Require Import Base BaseFacts M_utils M_sig M_process M_sph0 M_sph M_process3 S_process3 P_sig.
Open Scope R_scope.

(** ** causal convolution *)
Definition cv (f g : nat -> R) (n : nat) : R := rsum (S n) (fun k => f k * g (n - k)%nat).
Lemma cv_ext f f' g g' n : (forall k, (k <= n)%nat -> f k = f' k) -> (forall k, (k <= n)%nat -> g k = g' k) -> cv f g n = cv f' g' n.
Proof. intros F G. apply rsum_ext. intros k K. rewrite F, G by lia. reflexivity. Qed.
Lemma cv_comm f g n : cv f g n = cv g f n.
Proof. unfold cv. rewrite rsum_rev. apply rsum_ext. intros k K. replace (S n - 1 - k)%nat with (n - k)%nat by lia. replace (n - (n - k))%nat with k by lia. ring. Qed.
Lemma cv_S f g n : cv f g (S n) = f 0%nat * g (S n) + cv (fun k => f (S k)) g n.
Proof. unfold cv. rewrite rsum_shift. reflexivity. Qed.
Lemma cv_plus_l f f' g n : cv (fun k => f k + f' k) g n = cv f g n + cv f' g n.
Proof. unfold cv. rewrite <- rsum_plus. apply rsum_ext. intros. ring. Qed.
Lemma cv_scal_l c f g n : cv (fun k => c * f k) g n = c * cv f g n.
Proof. unfold cv. rewrite <- rsum_scal. apply rsum_ext. intros. ring. Qed.
Lemma cv_scal_r c f g n : cv f (fun k => c * g k) n = c * cv f g n.
Proof. rewrite cv_comm, cv_scal_l, cv_comm. reflexivity. Qed.
Lemma cv_plus_r f g g' n : cv f (fun k => g k + g' k) n = cv f g n + cv f g' n.
Proof. rewrite cv_comm, cv_plus_l, !(cv_comm _ f). reflexivity. Qed.
Lemma cv_assoc n : forall f g h, cv (cv f g) h n = cv f (cv g h) n.
Proof.
  induction n as [|n IH]; intros f g h; [unfold cv; cbn; ring|]. rewrite (cv_S (cv f g)), (cv_S f (cv g h)), <- IH, (cv_S g h).
  rewrite (cv_ext (fun k => cv f g (S k)) (fun k => f 0%nat * g (S k) + cv (fun k => f (S k)) g k) h h n) by (intros; rewrite ?cv_S; reflexivity).
  rewrite cv_plus_l, cv_scal_l. unfold cv at 1. cbn [rsum]. rewrite Nat.sub_diag. ring.
Qed.
Definition unit0 (n : nat) : R := match n with O => 1 | S _ => 0 end.
Lemma cv_unit f n : cv unit0 f n = f n.
Proof. unfold cv. rewrite rsum_shift. cbn [unit0]. rewrite rsum_0 by (intros; ring). rewrite Nat.sub_0_r. ring. Qed.

Definition sq (l : list R) (n : nat) : R := nth n l 0.
Lemma past_cv a y n : rsum (length a) (fun k => nth k a 0 * past y n k) = cv (sq a) (sq y) n.
Proof.
  unfold cv, sq. destruct (Nat.le_gt_cases (length a) (S n)) as [H|H].
  - replace (S n) with (length a + (S n - length a))%nat by lia. rewrite rsum_app. rewrite (rsum_0 (S n - length a)) by (intros i I; rewrite (nth_overflow a) by lia; ring). rewrite Rplus_0_r. apply rsum_ext. intros k K. unfold past. destruct (Nat.leb_spec k n); [|lia]. reflexivity.
  - replace (length a) with (S n + (length a - S n))%nat by lia. rewrite rsum_app. rewrite (rsum_0 (length a - S n)); [rewrite Rplus_0_r; apply rsum_ext; intros k K; unfold past; destruct (Nat.leb_spec k n); [reflexivity|lia]|]. intros i I. unfold past. destruct (Nat.leb_spec (S n + i) n); [lia|ring].
Qed.
Lemma de_cv b a x y : difference_equation b a x y <-> length y = length x /\ forall n, (n < length x)%nat -> cv (sq a) (sq y) n = cv (sq b) (sq x) n.
Proof. unfold difference_equation. split; intros [L H]; (split; [exact L|]); intros n N; specialize (H n N); rewrite !past_cv in *; exact H. Qed.

(** at most one output *)
Lemma cv_det f g g' n : f 0%nat <> 0 -> (forall k, (k <= n)%nat -> cv f g k = cv f g' k) -> forall k, (k <= n)%nat -> g k = g' k.
Proof.
  intros F H k. induction k as [k IH] using lt_wf_ind. intros K. pose proof (H k K) as E. unfold cv in E. rewrite !rsum_shift in E. rewrite !Nat.sub_0_r in E.
  rewrite (rsum_ext k (fun i => f (S i) * g (k - S i)%nat) (fun i => f (S i) * g' (k - S i)%nat)) in E by (intros i I; rewrite IH by lia; reflexivity). apply (Rmult_eq_reg_l (f 0%nat)); [lra|exact F].
Qed.
Lemma de_unique b a x y y' : nth 0 a 0 <> 0 -> difference_equation b a x y -> difference_equation b a x y' -> y' = y.
Proof.
  intros A H H'. apply de_cv in H. apply de_cv in H'. destruct H as [L H]. destruct H' as [L' H']. apply nth_ext with (d := 0) (d' := 0); [congruence|]. intros n N. rewrite L' in N.
  apply (cv_det (sq a) (sq y') (sq y) n A); [|lia]. intros k K. rewrite H, H' by lia. reflexivity.
Qed.

(** ** transposed direct form II: the state is what the past adds to the coming outputs *)
Lemma df2t_length b a x : forall z, length (df2t b a z x) = length x.
Proof. induction x as [|u x IH]; intros z; cbn [df2t length]; [reflexivity|]. rewrite IH. reflexivity. Qed.
Lemma df2t_ok b a L x : length b = S L -> length a = S L -> nth 0 a 0 = 1 -> forall z, length z = L -> forall n, (n < length x)%nat -> cv (sq a) (sq (df2t b a z x)) n = cv (sq b) (sq x) n + nth n z 0.
Proof.
  intros LB LA A0. induction x as [|u x IH]; intros z LZ n N; [cbn in N; lia|]. cbn [df2t]. set (y := nth 0 z 0 + nth 0 b 0 * u). destruct n as [|n].
  - unfold cv, sq. cbn [rsum nth Nat.sub]. rewrite A0. unfold y. ring.
  - rewrite cv_comm, cv_S. rewrite (cv_comm (sq b)), (cv_S (sq (u :: x))). change (fun k => sq (y :: df2t b a (df2t_next b a z u y) x) (S k)) with (sq (df2t b a (df2t_next b a z u y) x)). change (fun k => sq (u :: x) (S k)) with (sq x).
    rewrite cv_comm, IH by (try (unfold df2t_next; rewrite map_length, seq_length; exact LZ); cbn in N; lia). rewrite (cv_comm (sq b)). change (sq (y :: df2t b a (df2t_next b a z u y) x) 0) with y. change (sq (u :: x) 0) with u. unfold sq at 1 3.
    assert (E : nth n (df2t_next b a z u y) 0 = nth (S n) z 0 + nth (S n) b 0 * u - nth (S n) a 0 * y).
    { unfold df2t_next. destruct (Nat.lt_ge_cases n L) as [H|H]; [rewrite LZ, (nth_map_seq (fun i => nth (S i) z 0 + nth (S i) b 0 * u - nth (S i) a 0 * y)) by exact H; reflexivity|]. rewrite !nth_overflow by (rewrite ?map_length, ?seq_length; lia). ring. }
    rewrite E. unfold sq. ring.
Qed.
Lemma nth_pad n l k : nth k (pad_to n l) 0 = nth k l 0.
Proof.
  unfold pad_to. destruct (Nat.lt_ge_cases k (length l)) as [H|H]; [apply app_nth1; exact H|]. rewrite app_nth2 by exact H. rewrite (nth_overflow l) by exact H. destruct (Nat.lt_ge_cases (k - length l) (n - length l)) as [G|G]; [|apply nth_overflow; rewrite repeat_length; exact G].
  apply repeat_spec with (n := (n - length l)%nat) (x := 0). apply nth_In. rewrite repeat_length. exact G.
Qed.
Lemma nth_div l c k : nth k (map (fun x => x / c) l) 0 = nth k l 0 / c.
Proof. destruct (Nat.lt_ge_cases k (length l)) as [H|H]; [rewrite (nth_map_in _ l k 0 0) by exact H; reflexivity|]. rewrite !nth_overflow by (rewrite ?map_length; exact H). unfold Rdiv. ring. Qed.
Lemma length_pad n l : (length l <= n)%nat -> length (pad_to n l) = n.
Proof. intros H. unfold pad_to. rewrite app_length, repeat_length. lia. Qed.
Lemma nth_zeros n k : nth k (repeat 0 n) 0 = 0.
Proof. destruct (Nat.lt_ge_cases k n) as [H|H]; [|apply nth_overflow; rewrite repeat_length; exact H]. apply repeat_spec with (n := n) (x := 0). apply nth_In. rewrite repeat_length. exact H. Qed.

Lemma lfilter_ok b a x : nth 0 a 0 <> 0 -> b <> [] -> (x <> [] \/ (1 < length a)%nat) -> exists y, lfilter b a x = Ok y /\ difference_equation b a x y.
Proof.
  intros A B X. destruct a as [|a0 a]; [cbn in A; lra|]. cbn [nth] in A. destruct b as [|b0 b]; [congruence|]. destruct a as [|a1 a].
  - destruct x as [|x0 x]; [destruct X as [X|X]; [congruence|cbn in X; lia]|]. unfold lfilter. destruct (Req_EM_T a0 0) as [E|_]; [contradiction|]. eexists. split; [reflexivity|]. apply de_cv. set (xx := x0 :: x). set (bb := b0 :: b).
    assert (LC : le (length xx) (length (convolve (map (fun c => c / a0) bb) xx))) by (rewrite length_convolve; unfold bb, xx; cbn [map]; cbn [length]; rewrite map_length; lia). split; [apply firstn_length_le; exact LC|].
    intros n N. assert (E : nth n (firstn (length xx) (convolve (map (fun c => c / a0) bb) xx)) 0 = cv (sq bb) (sq xx) n / a0).
    { rewrite nth_firstn by exact N. unfold convolve at 1. unfold bb at 1, xx at 1. cbn [map]. fold xx. change (b0 / a0 :: map (fun c => c / a0) b) with (map (fun c => c / a0) bb). rewrite (nth_map_seq (conv_at (map (fun c => c / a0) bb) xx)) by (rewrite map_length; unfold bb; cbn [length]; lia).
      unfold conv_at, cv. unfold Rdiv at 2. rewrite <- rsum_scal_r. apply rsum_ext. intros k K. rewrite nth_div. unfold sq, Rdiv. ring. }
    unfold cv at 1. rewrite rsum_shift. rewrite rsum_0 by (intros k K; unfold sq at 1; destruct k; cbn [nth]; ring). unfold sq at 1 2. rewrite Nat.sub_0_r, E. cbn [nth]. field. exact A.
  - unfold lfilter. destruct (Req_EM_T a0 0) as [E|_]; [contradiction|]. set (aa := a0 :: a1 :: a). set (bb := b0 :: b). set (n := Nat.max _ _). eexists. split; [reflexivity|]. apply de_cv. split; [apply df2t_length|]. intros k K.
    assert (Hn : (2 <= n)%nat) by (unfold n, aa; cbn [length]; lia). pose proof (df2t_ok (pad_to n (map (fun c => c / a0) bb)) (pad_to n (map (fun c => c / a0) aa)) (n - 1) x) as D.
    specialize (D ltac:(rewrite length_pad; [lia|rewrite map_length; unfold n; lia]) ltac:(rewrite length_pad; [lia|rewrite map_length; unfold n; lia]) ltac:(rewrite nth_pad, nth_div; unfold aa; cbn [nth]; field; exact A) (repeat 0 (n - 1)) (repeat_length _ _) k K). rewrite nth_zeros, Rplus_0_r in D.
    set (y := df2t _ _ _ x) in *. rewrite (cv_ext (sq (pad_to n (map (fun c => c / a0) aa))) (fun k => / a0 * sq aa k) (sq y) (sq y)) in D by (intros; unfold sq; rewrite ?nth_pad, ?nth_div; unfold Rdiv; ring). rewrite (cv_ext (sq (pad_to n (map (fun c => c / a0) bb))) (fun k => / a0 * sq bb k) (sq x) (sq x)) in D by (intros; unfold sq; rewrite ?nth_pad, ?nth_div; unfold Rdiv; ring).
    rewrite !cv_scal_l in D. apply (Rmult_eq_reg_l (/ a0)); [exact D|]. apply Rinv_neq_0_compat. exact A.
Qed.
Lemma f_lfilter : forall b a x, nth 0 a 0 <> 0 -> b <> [] -> (x <> [] \/ (1 < length a)%nat) ->
  exists y, lfilter b a x = Ok y /\ difference_equation b a x y /\ forall y', difference_equation b a x y' -> y' = y.
Proof. intros b a x A B X. destruct (lfilter_ok b a x A B X) as (y & E & D). exists y. split; [exact E|]. split; [exact D|]. intros y' D'. exact (de_unique b a x y y' A D D'). Qed.
Lemma lfilter_inv b a x y : lfilter b a x = Ok y -> nth 0 a 0 <> 0 /\ b <> [] /\ (x <> [] \/ (1 < length a)%nat).
Proof.
  unfold lfilter. destruct a as [|a0 [|a1 a]]; [discriminate| |]; destruct b as [|b0 b]; try discriminate; destruct (Req_EM_T a0 0); try discriminate; cbn [nth length]; intros H.
  - destruct x; [discriminate|]. repeat split; try discriminate; auto. left. discriminate.
  - repeat split; try discriminate; auto. right. lia.
Qed.
Lemma f_lfilter_inv : forall b a x y, lfilter b a x = Ok y -> difference_equation b a x y.
Proof. intros b a x y E. destruct (lfilter_inv _ _ _ _ E) as (A & B & X). destruct (lfilter_ok b a x A B X) as (y' & E' & D). congruence. Qed.

(** convolution with the impulse response *)
Lemma f_impulse : forall b a x y h, x <> [] -> lfilter b a x = Ok y -> lfilter b a (1 :: repeat 0 (length x - 1)) = Ok h ->
  forall n, (n < length x)%nat -> nth n y 0 = rsum (S n) (fun k => nth k h 0 * nth (n - k) x 0).
Proof.
  intros b a x y h X E H n N. destruct (lfilter_inv _ _ _ _ E) as (A & _ & _). apply f_lfilter_inv, de_cv in E. apply f_lfilter_inv, de_cv in H. destruct E as [L E]. destruct H as [LH H]. assert (LX : length (1 :: repeat 0 (length x - 1)) = length x) by (cbn [length]; rewrite repeat_length; destruct x; [congruence|cbn; lia]). rewrite LX in *.
  change (sq y n = cv (sq h) (sq x) n). apply (cv_det (sq a) (sq y) (cv (sq h) (sq x)) n A); [|lia]. intros k K. rewrite E by lia. rewrite <- cv_assoc. apply cv_ext; [|reflexivity]. intros j J. rewrite H by lia. assert (U : forall i, sq (1 :: repeat 0 (length x - 1)) i = unit0 i) by (intros [|i]; [reflexivity|apply nth_zeros]). rewrite (cv_ext (sq b) (sq b) (sq (1 :: repeat 0 (length x - 1))) unit0 j (fun _ _ => eq_refl) (fun i _ => U i)). rewrite cv_comm, cv_unit. reflexivity.
Qed.
(** filters are linear: filtering a weighted sum *)
Lemma f_linear : forall b a n (xs : nat -> list R) (ys : nat -> list R) (c : nat -> R) m x y,
  (forall i, (i < m)%nat -> length (xs i) = n /\ lfilter b a (xs i) = Ok (ys i)) -> length x = n -> (forall t, (t < n)%nat -> nth t x 0 = rsum m (fun i => c i * nth t (xs i) 0)) -> lfilter b a x = Ok y ->
  length y = n /\ forall t, (t < n)%nat -> nth t y 0 = rsum m (fun i => c i * nth t (ys i) 0).
Proof.
  intros b a n xs ys c m x y HX L X E. destruct (lfilter_inv _ _ _ _ E) as (A & _ & _). apply f_lfilter_inv, de_cv in E. destruct E as [LY E]. split; [congruence|]. intros t T. rewrite L in E. apply (cv_det (sq a) (sq y) (fun t => rsum m (fun i => c i * nth t (ys i) 0)) t A); [|lia]. intros k K. rewrite E by lia. rewrite (cv_ext (sq b) (sq b) (sq x) (fun t => rsum m (fun i => c i * nth t (xs i) 0))) by (try reflexivity; intros; unfold sq; apply X; lia).
  assert (G : forall f (zs : nat -> list R), cv f (fun t => rsum m (fun i => c i * nth t (zs i) 0)) k = rsum m (fun i => c i * cv f (sq (zs i)) k)).
  { intros f zs. unfold cv. rewrite (rsum_ext (S k) _ (fun j => rsum m (fun i => c i * (f j * sq (zs i) (k - j)%nat)))) by (intros; rewrite <- rsum_scal; apply rsum_ext; intros; unfold sq; ring). rewrite rsum_swap. apply rsum_ext. intros. rewrite <- rsum_scal. reflexivity. }
  rewrite !G. apply rsum_ext. intros i I. destruct (HX i I) as [Li Ei]. apply f_lfilter_inv, de_cv in Ei. destruct Ei as [_ Ei]. rewrite Ei by lia. reflexivity.
Qed.
Lemma f_lfilter_errors : forall b a x e, lfilter b a x = Err e -> a = [] \/ b = [] \/ nth 0 a 0 = 0 \/ (x = [] /\ length a = 1%nat).
Proof.
  intros b a x e H. unfold lfilter in H. destruct a as [|a0 [|a1 a]]; [left; reflexivity| |]; destruct b as [|b0 b]; try (right; left; reflexivity); destruct (Req_EM_T a0 0) as [Z|Z]; cbn [nth length]; auto.
  - destruct x; [auto 6|discriminate].
  - discriminate.
Qed.
