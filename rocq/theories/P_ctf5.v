(** apply_ctf_eq, resample_spectrum. *)
From Verif Require Import Base BaseFacts M_utils M_sig M_process M_sph M_grids M_parsa2 M_parsa3 M_decoder4 M_process2 S_process S_decoder3 S_magls S_ctf P_utils P_sig P_dec13 P_parsa8 P_magls1 P_magls2 P_magls3 P_magls4 P_magls5.
Open Scope R_scope.

Lemma full_ok x e : (0 < length x)%nat -> (0 < length e)%nat -> cut_convolution x e 0 (length x + length e - 1) (convolve x e).
Proof.
  intros X E. split; [apply length_conv_nonempty; intros ->; cbn in *; lia|]. intros t T. rewrite nth_convolve, Nat.add_0_r. reflexivity.
Qed.
Lemma same_ok x e : (0 < length x)%nat -> (0 < length e)%nat -> cut_convolution x e ((length e - 1) / 2) (length x) (convolve_same x e).
Proof.
  intros X E. split; [apply length_same; lia|]. intros t T. unfold convolve_same. destruct x as [|x0 x]; [cbn in X; lia|]. destruct e as [|e0 e]; [cbn in E; lia|].
  rewrite nth_firstn by exact T. rewrite nth_skipn, nth_convolve, Nat.add_comm. reflexivity.
Qed.
Lemma valid_ok x e : (0 < length x)%nat -> (0 < length e)%nat ->
  cut_convolution x e (Nat.min (length x) (length e) - 1) (Nat.max (length x) (length e) - Nat.min (length x) (length e) + 1) (convolve_valid x e).
Proof.
  intros X E. assert (L : length (convolve x e) = (length x + length e - 1)%nat) by (apply length_conv_nonempty; intros ->; cbn in *; lia).
  split; [unfold convolve_valid; rewrite firstn_length, skipn_length, L; lia|]. intros t T. unfold convolve_valid. rewrite nth_firstn by exact T. rewrite nth_skipn, nth_convolve, Nat.add_comm. reflexivity.
Qed.
Lemma rows_map (f : list R -> list R) xs e taps start len : (0 < taps)%nat -> Forall (fun x => length x = taps) xs -> (forall x, length x = taps -> cut_convolution x e start len (f x)) ->
  Forall2 (fun x y => cut_convolution x e start len y) xs (map f xs).
Proof. intros T F H. induction F as [|x xs L F IH]; constructor; [apply H; exact L|exact IH]. Qed.
Definition eq_window (mode : cmode) (G taps K : nat) : option (nat * nat) :=
  match mode with
  | Full => Some (0, taps + K - 1)%nat
  | Same => Some ((K - 1) / 2, taps)%nat
  | Valid => if Nat.leb K taps then Some (K - 1, taps - K + 1)%nat else if Nat.leb G 1 then Some (taps - 1, K - taps + 1)%nat else None
  | OtherMode => None
  end.
Lemma conv_rows_ok xs taps e mode start len : (0 < length xs)%nat -> (0 < taps)%nat -> (0 < length e)%nat -> Forall (fun x => length x = taps) xs ->
  eq_window mode (length xs) taps (length e) = Some (start, len) ->
  exists ys, conv_rows xs taps e mode = Ok ys /\ Forall2 (fun x y => cut_convolution x e start len y) xs ys.
Proof.
  intros G T E F W. unfold conv_rows.
  rewrite (proj2 (Nat.eqb_neq (length xs * taps) 0)) by nia. rewrite (proj2 (Nat.eqb_neq (length e) 0)) by lia. cbn [orb].
  destruct mode; cbn [eq_window] in W; try discriminate.
  - injection W as <- <-. eexists. split; [reflexivity|]. apply (rows_map _ _ _ taps); [exact T|exact F|]. intros x <-. apply full_ok; lia.
  - injection W as <- <-. eexists. split; [reflexivity|]. apply (rows_map _ _ _ taps); [exact T|exact F|]. intros x <-. apply same_ok; lia.
  - destruct (Nat.leb_spec (length e) taps).
    + injection W as <- <-. cbn [orb]. eexists. split; [reflexivity|]. apply (rows_map _ _ _ taps); [exact T|exact F|]. intros x L. pose proof (valid_ok x e ltac:(lia) E) as V.
      rewrite L, Nat.max_l, Nat.min_r in V by lia. exact V.
    + destruct (Nat.leb (length xs) 1) eqn:G1; [|discriminate]. injection W as <- <-. cbn [orb andb]. rewrite (proj2 (Nat.leb_le taps (length e))) by lia.
      eexists. split; [reflexivity|]. apply (rows_map _ _ _ taps); [exact T|exact F|]. intros x L. pose proof (valid_ok x e ltac:(lia) E) as V.
      rewrite L, Nat.max_r, Nat.min_l in V by lia. exact V.
Qed.
Lemma f2_len {A B} (P : A -> B -> Prop) l m : Forall2 P l m -> length l = length m.
Proof. induction 1; cbn [length]; congruence. Qed.
Lemma apply_ok pinv cond minph hr mode e start len : rectangular hr -> (0 < length e)%nat -> eq_window mode (length (h_left hr)) (h_taps hr) (length e) = Some (start, len) ->
  exists hr', apply_ctf_eq pinv cond minph hr (Some e) mode = Ok (Some hr') /\ equalised hr hr' e start len.
Proof.
  intros (G & GR & T & FL & FR) E W. unfold apply_ctf_eq. cbn [bind].
  destruct (conv_rows_ok (h_left hr) (h_taps hr) e mode start len G T E FL W) as (l & -> & Fl). cbn [bind].
  rewrite <- GR in W. destruct (conv_rows_ok (h_right hr) (h_taps hr) e mode start len ltac:(lia) T E FR W) as (r & -> & Fr). cbn [bind].
  eexists. split; [reflexivity|]. unfold equalised. cbn [h_azi h_zen h_fs num_grid_points h_taps h_left h_right]. do 4 (split; [reflexivity|]). split; [|split; assumption].
  destruct Fl as [|x y xs ys [L _] _]; [cbn in G; lia|]. exact L.
Qed.
Lemma apply_invalid pinv cond minph hr mode e : rectangular hr -> (0 < length e)%nat -> eq_window mode (length (h_left hr)) (h_taps hr) (length e) = None ->
  apply_ctf_eq pinv cond minph hr (Some e) mode = Err ValueError.
Proof.
  intros (G & GR & T & FL & FR) E W. unfold apply_ctf_eq, conv_rows. cbn [bind].
  rewrite (proj2 (Nat.eqb_neq (length (h_left hr) * h_taps hr) 0)) by nia. rewrite (proj2 (Nat.eqb_neq (length e) 0)) by lia. cbn [orb].
  destruct mode; cbn [eq_window] in W; try discriminate; [|reflexivity].
  destruct (Nat.leb (length e) (h_taps hr)); [discriminate|]. destruct (Nat.leb (length (h_left hr)) 1); [discriminate|]. reflexivity.
Qed.
Lemma apply_empty pinv cond minph hr mode : apply_ctf_eq pinv cond minph hr (Some []) mode = Err IndexError.
Proof. unfold apply_ctf_eq, conv_rows. cbn [bind length Nat.eqb]. rewrite Bool.orb_true_r. reflexivity. Qed.
Lemma apply_default pinv cond minph hr mode : apply_ctf_eq pinv cond minph hr None mode =
  match hrirs_ctf pinv cond minph hr true (125, 10000) None with
  | Ok (Some e) => apply_ctf_eq pinv cond minph hr (Some e) mode
  | Ok None => Ok None
  | Err x => Err x
  end.
Proof. unfold apply_ctf_eq at 1. destruct (hrirs_ctf pinv cond minph hr true (125, 10000) None) as [[e|]|x]; reflexivity. Qed.
(** ** the spectrum of a convolution *)
Lemma conv_sum_weighted x h n (f : nat -> R) : (length x + length h - 1 <= n)%nat -> (0 < length x)%nat -> (0 < length h)%nat ->
  rsum n (fun t => conv_sum x h t * f t) = rsum (length x) (fun i => rsum (length h) (fun j => nth i x 0 * nth j h 0 * f (i + j)%nat)).
Proof.
  intros N X Hh. unfold conv_sum.
  rewrite (rsum_ext n _ (fun t => rsum (length x) (fun i => rsum (length h) (fun j => if (i + j =? t)%nat then nth i x 0 * nth j h 0 * f t else 0)))).
  2:{ intros t _. rewrite <- rsum_scal_r. apply rsum_ext. intros i _. rewrite <- rsum_scal_r. apply rsum_ext. intros j _. destruct (i + j =? t)%nat; ring. }
  rewrite rsum_swap. apply rsum_ext. intros i Hi. rewrite rsum_swap. apply rsum_ext. intros j Hj.
  rewrite (rsum_single n (i + j)%nat); [rewrite Nat.eqb_refl; reflexivity|lia|]. intros t _ NE. rewrite (proj2 (Nat.eqb_neq (i + j) t)) by auto. reflexivity.
Qed.
Lemma rsum_cut n m (f : nat -> R) : (m <= n)%nat -> (forall i, (m <= i < n)%nat -> f i = 0) -> rsum n f = rsum m f.
Proof. intros L Z0. apply rsum_extend; [exact L|exact Z0]. Qed.
Lemma dft_short n x k : (length x <= n)%nat -> dft n x k = (rsum (length x) (fun j => nth j x 0 * cos (2 * PI * INR (j * k) / INR n)), - rsum (length x) (fun j => nth j x 0 * sin (2 * PI * INR (j * k) / INR n))).
Proof.
  intros L. unfold dft. f_equal; [|f_equal]; apply rsum_cut; try exact L; intros j Hj; rewrite nth_overflow by lia; ring.
Qed.
Lemma dft_convolution n x e y k : (0 < length x)%nat -> (0 < length e)%nat -> (length x + length e - 1 <= n)%nat -> cut_convolution x e 0 (length x + length e - 1) y ->
  dft n y k = cproduct (dft n x k) (dft n e k).
Proof.
  intros X E N [L V].
  assert (Y : forall (g : nat -> R), rsum n (fun t => nth t y 0 * g t) = rsum n (fun t => conv_sum x e t * g t)).
  { intros g. apply rsum_ext. intros t Ht. destruct (Nat.lt_ge_cases t (length x + length e - 1)) as [Q|Q]; [rewrite V, Nat.add_0_r by exact Q; reflexivity|]. rewrite nth_overflow, conv_sum_cut by lia. reflexivity. }
  rewrite (dft_short n x k), (dft_short n e k) by lia. unfold dft, cproduct. cbn [fst snd]. rewrite !Y, !conv_sum_weighted by assumption.
  assert (A : forall i j, 2 * PI * INR ((i + j) * k) / INR n = 2 * PI * INR (i * k) / INR n + 2 * PI * INR (j * k) / INR n).
  { intros i j. rewrite Nat.mul_add_distr_r, plus_INR. field. apply not_0_INR. lia. }
  pose (tx := fun i => 2 * PI * INR (i * k) / INR n).
  assert (PR : forall f g, rsum (length x) (fun i => nth i x 0 * f i) * rsum (length e) (fun j => nth j e 0 * g j) = rsum (length x) (fun i => rsum (length e) (fun j => nth i x 0 * nth j e 0 * (f i * g j)))).
  { intros f g. rewrite <- rsum_scal_r. apply rsum_ext. intros i _. rewrite <- rsum_scal. apply rsum_ext. intros j _. ring. }
  pose proof (PR (fun i => cos (tx i)) (fun j => cos (tx j))) as CC. pose proof (PR (fun i => sin (tx i)) (fun j => sin (tx j))) as SS.
  pose proof (PR (fun i => cos (tx i)) (fun j => sin (tx j))) as CS. pose proof (PR (fun i => sin (tx i)) (fun j => cos (tx j))) as SC. unfold tx in CC, SS, CS, SC. cbv beta in CC, SS, CS, SC.
  f_equal.
  - match goal with |- _ = ?a * ?b - (- ?c) * (- ?d) => replace (a * b - - c * - d) with (a * b - c * d) by ring end. rewrite CC, SS, <- rsum_minus. apply rsum_ext. intros i _. rewrite <- rsum_minus. apply rsum_ext. intros j _.
    rewrite (A i j), cos_plus. ring.
  - match goal with |- _ = ?a * - ?b + - ?c * ?d => replace (a * - b + - c * d) with (- (a * b + c * d)) by ring end. rewrite CS, SC, <- rsum_plus. f_equal. apply rsum_ext. intros i _. rewrite <- rsum_plus. apply rsum_ext. intros j _.
    rewrite (A i j), sin_plus. ring.
Qed.
