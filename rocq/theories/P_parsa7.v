(** render_bsdm: sequential loop, parallel tasks. *)
From Coq Require Import Permutation.
From Verif Require Import Base BaseFacts M_utils M_sig M_process M_decoder M_decoder2 M_decoder3 M_parsa2
  S_decoder3 S_parsa2 P_sig P_dec13 P_parsa6.
Open Scope R_scope.

Lemma iadd_at_ok out i v : (i + length v <= length out)%nat ->
  exists out', iadd_at out i v = Ok out' /\ length out' = length out /\
    forall n, nth n out' 0 = nth n out 0 + (if (i <=? n)%nat then nth (n - i) v 0 else 0).
Proof.
  intros H. unfold iadd_at. rewrite <- Nat2Z.inj_add.
  set (s := slice out (Z.of_nat i) (Z.of_nat (i + length v))).
  assert (length s = length v) as Ls.
  { unfold s. rewrite length_slice, !norm_idx_nat by lia. lia. }
  unfold iadd. rewrite Ls, Nat.eqb_refl. cbn [bind].
  set (q := map _ (combine s v)).
  assert (length q = length v) as Lq by (unfold q; rewrite map_length, combine_length; lia).
  destruct (nth_slice_set out i (i + length v) q 0 0) as (out' & E & L & _); [lia|rewrite Lq; lia|].
  exists out'. split; [exact E|]. split; [exact L|]. intros n.
  destruct (nth_slice_set out i (i + length v) q 0 n) as (o2 & E2 & _ & N); [lia|rewrite Lq; lia|].
  rewrite E in E2. injection E2 as <-. rewrite N.
  destruct (Nat.leb_spec i n) as [A|A]; cbn [andb]; [|lra].
  destruct (Nat.ltb_spec n (i + length v)) as [B|B].
  - unfold q. rewrite (nth_map_in _ _ _ _ (0, 0)) by (rewrite combine_length; lia).
    rewrite combine_nth by lia. cbn [fst snd]. unfold s. rewrite nth_slice by (rewrite !norm_idx_nat by lia; lia).
    rewrite norm_idx_nat by lia. replace (i + (n - i))%nat with n by lia. reflexivity.
  - rewrite (nth_overflow v) by lia. lra.
Qed.

(** the responses for one direction *)
Definition resp_l (hr : hrirs) (d : R * (R * R)) : list R :=
  match nearest_hrirs hr (fst (snd d)) (snd (snd d)) with Ok hh => fst hh | Err _ => [] end.
Definition resp_r (hr : hrirs) (d : R * (R * R)) : list R :=
  match nearest_hrirs hr (fst (snd d)) (snd (snd d)) with Ok hh => snd hh | Err _ => [] end.
Lemma resp_ok hr T a z : hrir_set hr T ->
  exists k, closest hr a z k /\ nearest_hrirs hr a z = Ok (nth k (h_left hr) [], nth k (h_right hr) []) /\
    length (nth k (h_left hr) []) = T /\ length (nth k (h_right hr) []) = T.
Proof.
  intros (_ & Hne & Lz & Ll & Lr & _ & Fl & Fr).
  destruct (nearest_idx_spec hr a z (eq_sym Lz) Hne) as (k & ak & zk & E & Ea & Ez & M).
  destruct (nearest_hrirs_spec hr a z (eq_sym Lz) Hne Ll Lr) as (k' & l & r & E' & N & El & Er).
  rewrite E in E'. injection E' as <-. exists k.
  rewrite (nth_error_nth _ _ _ El), (nth_error_nth _ _ _ Er).
  split; [exists ak, zk; auto|]. split; [exact N|].
  rewrite Forall_forall in Fl, Fr. split; [apply Fl|apply Fr]; eapply nth_error_In; eassumption.
Qed.
Lemma resp_nearest hr T d : hrir_set hr T ->
  nearest_hrirs hr (fst (snd d)) (snd (snd d)) = Ok (resp_l hr d, resp_r hr d) /\
  length (resp_l hr d) = T /\ length (resp_r hr d) = T.
Proof.
  intros H. unfold resp_l, resp_r. destruct (resp_ok hr T (fst (snd d)) (snd (snd d)) H) as (k & _ & -> & A & B).
  cbn [fst snd]. auto.
Qed.

Definition d0 : R * (R * R) := (0, (0, 0)).
Definition contribution (f : R * (R * R) -> list R) (i : nat) (d : R * (R * R)) (n : nat) : R :=
  if (i <=? n)%nat then fst d * nth (n - i) (f d) 0 else 0.
Lemma nth_scaled c l n : nth n (map (fun x => c * x) l) 0 = c * nth n l 0.
Proof.
  destruct (le_lt_dec (length l) n) as [G|G].
  - rewrite !nth_overflow by (rewrite ?map_length; exact G). lra.
  - apply (nth_map_in (fun x => c * x) l n 0 0 G).
Qed.
Lemma bsdm_loop_ok hr T : hrir_set hr T -> forall ds i l r N,
  length l = N -> length r = N -> (i + length ds + T <= S N)%nat ->
  exists l' r', bsdm_loop hr i ds (l, r) = Ok (l', r') /\ length l' = N /\ length r' = N /\
    (forall n, nth n l' 0 = nth n l 0 + rsum (length ds) (fun k => contribution (resp_l hr) (i + k) (nth k ds d0) n)) /\
    (forall n, nth n r' 0 = nth n r 0 + rsum (length ds) (fun k => contribution (resp_r hr) (i + k) (nth k ds d0) n)).
Proof.
  intros H. induction ds as [|[p [phi theta]] ds IH]; intros i l r N Ll Lr B.
  - exists l, r. cbn [bsdm_loop length rsum]. do 3 (split; [auto|]). split; intros n; lra.
  - cbn [length] in B. destruct (resp_nearest hr T (p, (phi, theta)) H) as (E & A1 & A2). cbn [fst snd] in E.
    cbn [bsdm_loop]. rewrite E. cbn [bind fst snd].
    destruct (iadd_at_ok l i (map (fun x => p * x) (resp_l hr (p, (phi, theta))))) as (l1 & E1 & L1 & N1); [rewrite map_length; lia|].
    destruct (iadd_at_ok r i (map (fun x => p * x) (resp_r hr (p, (phi, theta))))) as (r1 & E2 & L2 & N2); [rewrite map_length; lia|].
    rewrite E1, E2. cbn [bind].
    destruct (IH (S i) l1 r1 N) as (l' & r' & E' & L1' & L2' & M1 & M2); [lia|lia|lia|].
    exists l', r'. split; [exact E'|]. split; [exact L1'|]. split; [exact L2'|].
    split; intros n.
    + rewrite M1, N1. cbn [length]. rewrite rsum_shift. cbn [nth]. rewrite Nat.add_0_r.
      unfold contribution at 2. cbn [fst]. rewrite nth_scaled, Rplus_assoc. f_equal. f_equal.
      apply rsum_ext. intros k _. replace (S i + k)%nat with (i + S k)%nat by lia. reflexivity.
    + rewrite M2, N2. cbn [length]. rewrite rsum_shift. cbn [nth]. rewrite Nat.add_0_r.
      unfold contribution at 2. cbn [fst]. rewrite nth_scaled, Rplus_assoc. f_equal. f_equal.
      apply rsum_ext. intros k _. replace (S i + k)%nat with (i + S k)%nat by lia. reflexivity.
Qed.

(** ** The tasks *)
Definition adds (i c : nat) (v : list R) : list instr :=
  flat_map (fun j => [Load (2 * (i + j) + c); AddStore (2 * (i + j) + c) (nth j v 0)]) (seq 0 (length v)).
Lemma iadd_cells_ok n i c v : (i + length v <= n)%nat -> iadd_cells n i c v = Ok (adds i c v).
Proof.
  intros H. unfold iadd_cells. replace (Nat.min (i + length v) n - Nat.min i n)%nat with (length v) by lia.
  rewrite Nat.eqb_refl. reflexivity.
Qed.
Lemma pend_adds i c v n e : (c < 2)%nat -> (e < 2)%nat ->
  pend (2 * n + e) (adds i c v) = if ((c =? e) && (i <=? n))%nat%bool then nth (n - i) v 0 else 0.
Proof.
  intros C E. unfold adds. rewrite pend_flat_map, lsum_map_seq.
  transitivity (rsum (length v) (fun j => if ((c =? e) && (i + j =? n))%nat%bool then nth j v 0 else 0)).
  { apply rsum_ext. intros j _. cbn [pend].
    destruct (Nat.eqb_spec c e) as [->|Q]; cbn [andb].
    - destruct (Nat.eqb_spec (i + j) n) as [->|Q].
      + rewrite Nat.eqb_refl. lra.
      + destruct (Nat.eqb_spec (2 * (i + j) + e) (2 * n + e)); [lia|lra].
    - destruct (Nat.eqb_spec (2 * (i + j) + c) (2 * n + e)); [lia|lra]. }
  destruct (Nat.eqb_spec c e) as [Q|Q]; cbn [andb]; [|apply rsum_0; auto].
  destruct (Nat.leb_spec i n) as [A|A].
  - destruct (le_lt_dec (length v) (n - i)) as [B|B].
    + rewrite nth_overflow by exact B. apply rsum_0. intros j J.
      destruct (Nat.eqb_spec (i + j) n); [lia|reflexivity].
    + rewrite (rsum_single _ (n - i)%nat); [|exact B|].
      * replace (i + (n - i))%nat with n by lia. rewrite Nat.eqb_refl. reflexivity.
      * intros j J N. destruct (Nat.eqb_spec (i + j) n); [lia|reflexivity].
  - apply rsum_0. intros j J. destruct (Nat.eqb_spec (i + j) n); [lia|reflexivity].
Qed.
Lemma inside_adds lo i c v p : inside lo p -> inside lo (adds i c v ++ p).
Proof.
  intros H. unfold adds. induction (seq 0 (length v)) as [|j t IH]; [exact H|].
  cbn [flat_map app]. apply in_add. exact IH.
Qed.
Definition task_of (hr : hrirs) (i : nat) (d : R * (R * R)) (lo : nat) : list instr :=
  [Acquire lo] ++ adds i 0 (map (fun x => fst d * x) (resp_l hr d)) ++
  adds i 1 (map (fun x => fst d * x) (resp_r hr d)) ++ [Release lo].
Lemma bsdm_task_ok hr T n i d : hrir_set hr T -> (i + T <= n)%nat ->
  bsdm_task hr n i d = Ok (task_of hr i d).
Proof.
  intros H B. unfold bsdm_task. destruct (resp_nearest hr T d H) as (E & A1 & A2). rewrite E. cbn [bind fst snd].
  rewrite !iadd_cells_ok by (rewrite map_length; lia). reflexivity.
Qed.
Lemma outside_task hr i d lo p : outside lo p -> outside lo (task_of hr i d lo ++ p).
Proof.
  intros H. unfold task_of. cbn [app]. apply out_acq. rewrite <- app_assoc. apply inside_adds.
  rewrite <- app_assoc. apply inside_adds. cbn [app]. apply in_rel. exact H.
Qed.
Lemma pend_task hr i d lo n e : (e < 2)%nat ->
  pend (2 * n + e) (task_of hr i d lo) = contribution (if (e =? 0)%nat then resp_l hr else resp_r hr) i d n.
Proof.
  intros E. unfold task_of. rewrite !pend_app, !pend_adds by lia. cbn [pend]. unfold contribution.
  destruct e as [|[|e]]; [| |lia]; cbn [Nat.eqb andb]; destruct (Nat.leb_spec i n); rewrite ?nth_scaled; lra.
Qed.

Lemma nth_directions p phi theta i : (i < zipped p phi theta)%nat ->
  nth i (combine p (combine phi theta)) d0 = (nth i p 0, (nth i phi 0, nth i theta 0)).
Proof.
  unfold zipped, d0. revert phi theta i; induction p as [|a p IH]; intros phi theta i H; [cbn in H; lia|].
  destruct phi as [|b phi]; [cbn in H; lia|]. destruct theta as [|c theta]; [cbn in H; lia|].
  destruct i; [reflexivity|]. cbn [combine nth]. apply IH. cbn [length] in H. lia.
Qed.
Lemma length_directions p phi theta : length (combine p (combine phi theta)) = zipped p phi theta.
Proof. unfold zipped. rewrite !combine_length. reflexivity. Qed.

Lemma bsdm_tasks_ok p phi theta hr T n : hrir_set hr T -> (length p + T <= S n)%nat ->
  mapM (fun q => bsdm_task hr n (fst q) (snd q)) (combine (seq 0 (length p)) (combine p (combine phi theta))) =
  Ok (map (fun q => task_of hr (fst q) (snd q)) (combine (seq 0 (length p)) (combine p (combine phi theta)))).
Proof.
  intros H B. apply mapM_ok. intros q I. apply bsdm_task_ok with (T := T); [exact H|].
  destruct q as [i d]. apply in_combine_l in I. apply in_seq in I. cbn [fst]. lia.
Qed.
Lemma nth_tasks p phi theta hr i : (i < zipped p phi theta)%nat ->
  nth i (map (fun q => task_of hr (fst q) (snd q)) (combine (seq 0 (length p)) (combine p (combine phi theta)))) (fun _ => []) =
  task_of hr i (nth i (combine p (combine phi theta)) d0).
Proof.
  intros H. set (ds := combine p (combine phi theta)) in *.
  assert (length ds = zipped p phi theta) as L by apply length_directions.
  assert (length ds <= length p)%nat as L' by (unfold ds; rewrite combine_length; lia).
  rewrite (nth_map_in _ _ _ _ (0%nat, d0)) by (rewrite combine_length, seq_length; lia).
  assert (forall (A B : Type) (l : list A) (m : list B) a b k, (k < length l)%nat -> (k < length m)%nat ->
    nth k (combine l m) (a, b) = (nth k l a, nth k m b)) as G.
  { intros A B. induction l as [|x l IH]; intros m a b k K K'; [cbn in K; lia|]. destruct m; [cbn in K'; lia|].
    destruct k; [reflexivity|]. cbn [combine nth]. apply IH; cbn [length] in *; lia. }
  rewrite G by (rewrite ?seq_length; lia). cbn [fst snd]. rewrite seq_nth by lia. reflexivity.
Qed.

Definition bsdm_start (p phi theta : list R) (hr : hrirs) (n : nat) (lock_of : nat -> nat) (deal : list (list nat)) : machine :=
  start (2 * n) (fun w i => nth i (map (fun q => task_of hr (fst q) (snd q))
    (combine (seq 0 (length p)) (combine p (combine phi theta)))) (fun _ => []) (lock_of w)) deal.
Lemma bsdm_machine_ok p phi theta hr T n lock_of deal : hrir_set hr T -> (length p + T <= S n)%nat ->
  bsdm_machine p phi theta hr n lock_of deal = Ok (bsdm_start p phi theta hr n lock_of deal).
Proof.
  intros H B. unfold bsdm_machine. rewrite (bsdm_tasks_ok _ _ _ _ T) by assumption. reflexivity.
Qed.
Lemma dealt_in deal N w i : dealt deal N -> In i (nth w deal []) -> (i < N)%nat.
Proof.
  intros D I. assert (In i (seq 0 N)) as Q; [|apply in_seq in Q; lia].
  apply (Permutation_in _ D). apply in_concat. exists (nth w deal []). split; [|exact I].
  apply nth_In. destruct (le_lt_dec (length deal) w) as [G|G]; [|exact G]. rewrite nth_overflow in I by exact G. destruct I.
Qed.
Lemma bsdm_guarded p phi theta hr n lo lock_of deal : dealt deal (zipped p phi theta) ->
  (forall w, lock_of w = lo) -> guarded lo (bsdm_start p phi theta hr n lock_of deal).
Proof.
  intros D L. unfold guarded, bsdm_start. cbn [locks start]. intros w. rewrite prog_start, (L w).
  pose proof (fun i => dealt_in deal _ w i D) as Q.
  induction (nth w deal []) as [|i t IH]; [constructor|].
  cbn [flat_map]. rewrite nth_tasks by (apply Q; left; reflexivity). apply outside_task. apply IH.
  intros j J. apply Q. right. exact J.
Qed.
Lemma bsdm_total p phi theta hr n lock_of deal j e : dealt deal (zipped p phi theta) -> (e < 2)%nat ->
  pending (2 * j + e) (workers (bsdm_start p phi theta hr n lock_of deal)) =
  rsum (zipped p phi theta) (fun i => contribution (if (e =? 0)%nat then resp_l hr else resp_r hr) i (nth i (combine p (combine phi theta)) d0) j).
Proof.
  intros D E. apply pending_start; [exact D|]. intros w i I. rewrite nth_tasks by exact I. apply pend_task. exact E.
Qed.

(** ** Results *)
Lemma np_zeros_ok n T : (1 <= T)%nat -> np_zeros (Z.of_nat n + Z.of_nat T - 1) = Ok (repeat 0 (n + T - 1)).
Proof.
  intros H. unfold np_zeros. destruct (Z.ltb_spec (Z.of_nat n + Z.of_nat T - 1) 0); [lia|].
  do 2 f_equal. lia.
Qed.
Lemma contribution_moving f p phi theta n (h : nat -> list R) :
  (forall i, (i < zipped p phi theta)%nat -> f (nth i p 0, (nth i phi 0, nth i theta 0)) = h i) ->
  rsum (zipped p phi theta) (fun i => contribution f i (nth i (combine p (combine phi theta)) d0) n) =
  moving_conv (zipped p phi theta) p h n.
Proof.
  intros H. apply rsum_ext. intros i I. rewrite nth_directions by exact I. unfold contribution. cbn [fst].
  rewrite H by exact I. reflexivity.
Qed.
Lemma sequential_raw p phi theta hr T lo de sc : hrir_set hr T ->
  exists l r, render_bsdm p phi theta hr 1 lo de sc = Ok (l, r) /\
    length l = (length p + T - 1)%nat /\ length r = (length p + T - 1)%nat /\
    (forall n, nth n l 0 = rsum (zipped p phi theta) (fun i => contribution (resp_l hr) i (nth i (combine p (combine phi theta)) d0) n)) /\
    (forall n, nth n r 0 = rsum (zipped p phi theta) (fun i => contribution (resp_r hr) i (nth i (combine p (combine phi theta)) d0) n)).
Proof.
  intros H. pose proof H as (T1 & _ & _ & _ & _ & HT & _). unfold render_bsdm. rewrite HT, np_zeros_ok by exact T1.
  cbn [bind]. change (1 =? 1)%Z with true. cbn match.
  set (N := (length p + T - 1)%nat).
  pose proof (length_directions p phi theta) as LD. assert (zipped p phi theta <= length p)%nat as LZ by (unfold zipped; lia).
  destruct (bsdm_loop_ok hr T H (combine p (combine phi theta)) 0 (repeat 0 N) (repeat 0 N) N) as (l & r & E & L1 & L2 & M1 & M2);
    [apply repeat_length|apply repeat_length|unfold N; lia|].
  exists l, r. do 3 (split; [assumption|]).
  split; intros n; [rewrite M1|rewrite M2]; rewrite nth_repeat, LD, Rplus_0_l; reflexivity.
Qed.
Lemma responses hr T p phi theta : hrir_set hr T -> exists g,
  (forall i, (i < zipped p phi theta)%nat -> closest hr (nth i phi 0) (nth i theta 0) (g i)) /\
  (forall i, (i < zipped p phi theta)%nat -> resp_l hr (nth i p 0, (nth i phi 0, nth i theta 0)) = nth (g i) (h_left hr) [] /\
    resp_r hr (nth i p 0, (nth i phi 0, nth i theta 0)) = nth (g i) (h_right hr) []).
Proof.
  intros H. set (K := zipped p phi theta).
  assert (forall n, (n <= K)%nat -> exists g, forall i, (i < n)%nat -> closest hr (nth i phi 0) (nth i theta 0) (g i) /\
    resp_l hr (nth i p 0, (nth i phi 0, nth i theta 0)) = nth (g i) (h_left hr) [] /\
    resp_r hr (nth i p 0, (nth i phi 0, nth i theta 0)) = nth (g i) (h_right hr) []) as G.
  { induction n as [|n IH]; intros L; [exists (fun _ => 0%nat); intros; lia|].
    destruct IH as [g Hg]; [lia|].
    destruct (resp_ok hr T (nth n phi 0) (nth n theta 0) H) as (k & C & E & _).
    exists (fun i => if (i =? n)%nat then k else g i). intros i I. destruct (Nat.eqb_spec i n) as [->|Q].
    - split; [exact C|]. unfold resp_l, resp_r. cbn [fst snd]. rewrite E. auto.
    - apply Hg. lia. }
  destruct (G K (Nat.le_refl _)) as [g Hg]. exists g. split; intros i I; apply Hg; exact I.
Qed.
Theorem bsdm_output p phi theta hr T lo de sc : hrir_set hr T ->
  exists l r g, render_bsdm p phi theta hr 1 lo de sc = Ok (l, r) /\
    length l = (length p + T - 1)%nat /\ length r = (length p + T - 1)%nat /\
    (forall i, (i < zipped p phi theta)%nat -> closest hr (nth i phi 0) (nth i theta 0) (g i)) /\
    (forall n, nth n l 0 = moving_conv (zipped p phi theta) p (fun i => nth (g i) (h_left hr) []) n) /\
    (forall n, nth n r 0 = moving_conv (zipped p phi theta) p (fun i => nth (g i) (h_right hr) []) n).
Proof.
  intros H. destruct (sequential_raw p phi theta hr T lo de sc H) as (l & r & E & L1 & L2 & M1 & M2).
  destruct (responses hr T p phi theta H) as (g & G1 & G2).
  exists l, r, g. do 4 (split; [assumption|]).
  split; intros n; [rewrite M1|rewrite M2]; apply contribution_moving; intros i I; apply G2; exact I.
Qed.
Theorem bsdm_linear p q phi theta hr T a b lo de sc lp rp lq rq lc rc : hrir_set hr T -> length q = length p ->
  render_bsdm p phi theta hr 1 lo de sc = Ok (lp, rp) -> render_bsdm q phi theta hr 1 lo de sc = Ok (lq, rq) ->
  render_bsdm (combination a b p q) phi theta hr 1 lo de sc = Ok (lc, rc) ->
  lc = combination a b lp lq /\ rc = combination a b rp rq.
Proof.
  intros H LQ Ep Eq Ec.
  assert (length (combination a b p q) = length p) as LC by (unfold combination; rewrite map_length, seq_length; reflexivity).
  destruct (sequential_raw p phi theta hr T lo de sc H) as (l1 & r1 & E1 & A1 & B1 & C1 & D1).
  destruct (sequential_raw q phi theta hr T lo de sc H) as (l2 & r2 & E2 & A2 & B2 & C2 & D2).
  destruct (sequential_raw (combination a b p q) phi theta hr T lo de sc H) as (l3 & r3 & E3 & A3 & B3 & C3 & D3).
  assert (lp = l1 /\ rp = r1) as [-> ->] by (split; congruence).
  assert (lq = l2 /\ rq = r2) as [-> ->] by (split; congruence).
  assert (lc = l3 /\ rc = r3) as [-> ->] by (split; congruence).
  assert (zipped q phi theta = zipped p phi theta) as Z2 by (unfold zipped; lia).
  assert (zipped (combination a b p q) phi theta = zipped p phi theta) as Z3 by (unfold zipped; lia).
  rewrite Z2 in C2, D2. rewrite Z3 in C3, D3.
  assert (forall f, (forall x y d, f (x, d) = f (y, d)) -> forall n,
    rsum (zipped p phi theta) (fun i => contribution f i (nth i (combine (combination a b p q) (combine phi theta)) d0) n) =
    a * rsum (zipped p phi theta) (fun i => contribution f i (nth i (combine p (combine phi theta)) d0) n) +
    b * rsum (zipped p phi theta) (fun i => contribution f i (nth i (combine q (combine phi theta)) d0) n)) as G.
  { intros f Hf n. rewrite <- !rsum_scal, <- rsum_plus. apply rsum_ext. intros i I.
    rewrite !nth_directions by (rewrite ?Z2, ?Z3; exact I).
    unfold contribution. cbn [fst]. destruct (Nat.leb_spec i n); [|lra].
    unfold combination. rewrite nth_map_seq by (unfold zipped in I; lia).
    rewrite (Hf (a * nth i p 0 + b * nth i q 0) (nth i p 0)), (Hf (nth i q 0) (nth i p 0)). lra. }
  split; apply (nth_ext_list 0); unfold combination at 1; rewrite ?map_length, ?seq_length; try lia.
  - intros n _. rewrite C3, G by reflexivity. rewrite <- C1, <- C2.
    destruct (le_lt_dec (length l1) n) as [Q|Q]; [|unfold combination; rewrite nth_map_seq by exact Q; reflexivity].
    unfold combination. rewrite !nth_overflow by (rewrite ?map_length, ?seq_length; lia). lra.
  - intros n _. rewrite D3, G by reflexivity. rewrite <- D1, <- D2.
    destruct (le_lt_dec (length r1) n) as [Q|Q]; [|unfold combination; rewrite nth_map_seq by exact Q; reflexivity].
    unfold combination. rewrite !nth_overflow by (rewrite ?map_length, ?seq_length; lia). lra.
Qed.
Lemma moving_conv_const p h n : moving_conv (length p) p (fun _ => h) n = conv_sum p h n.
Proof.
  unfold moving_conv, conv_sum. apply rsum_ext. intros i I. destruct (Nat.leb_spec i n) as [A|A].
  - destruct (le_lt_dec (length h) (n - i)) as [B|B].
    + rewrite (nth_overflow h) by exact B. rewrite Rmult_0_r. symmetry. apply rsum_0. intros j J.
      destruct (Nat.eqb_spec (i + j) n); [lia|reflexivity].
    + symmetry. rewrite (rsum_single _ (n - i)%nat); [|exact B|].
      * replace (i + (n - i))%nat with n by lia. rewrite Nat.eqb_refl. reflexivity.
      * intros j J N. destruct (Nat.eqb_spec (i + j) n); [lia|reflexivity].
  - symmetry. apply rsum_0. intros j J. destruct (Nat.eqb_spec (i + j) n); [lia|reflexivity].
Qed.
Theorem bsdm_one_direction p a z hr T lo de sc : hrir_set hr T -> exists l r k,
  render_bsdm p (repeat a (length p)) (repeat z (length p)) hr 1 lo de sc = Ok (l, r) /\ closest hr a z k /\
  (forall n, nth n l 0 = conv_sum p (nth k (h_left hr) []) n) /\
  (forall n, nth n r 0 = conv_sum p (nth k (h_right hr) []) n) /\
  (p <> [] -> l = convolve p (nth k (h_left hr) []) /\ r = convolve p (nth k (h_right hr) [])).
Proof.
  intros H. set (phi := repeat a (length p)). set (theta := repeat z (length p)).
  assert (zipped p phi theta = length p) as LZ by (unfold zipped, phi, theta; rewrite !repeat_length; lia).
  destruct (sequential_raw p phi theta hr T lo de sc H) as (l & r & E & L1 & L2 & M1 & M2).
  destruct (resp_ok hr T a z H) as (k & C & N & T1 & T2). exists l, r, k.
  split; [exact E|]. split; [exact C|].
  assert (forall n, nth n l 0 = conv_sum p (nth k (h_left hr) []) n) as A1.
  { intros n. rewrite M1, <- moving_conv_const, <- LZ. apply contribution_moving. intros i I. rewrite LZ in I.
    unfold resp_l. cbn [fst snd]. unfold phi, theta. rewrite !nth_repeat_in by exact I. rewrite N. reflexivity. }
  assert (forall n, nth n r 0 = conv_sum p (nth k (h_right hr) []) n) as A2.
  { intros n. rewrite M2, <- moving_conv_const, <- LZ. apply contribution_moving. intros i I. rewrite LZ in I.
    unfold resp_r. cbn [fst snd]. unfold phi, theta. rewrite !nth_repeat_in by exact I. rewrite N. reflexivity. }
  split; [exact A1|]. split; [exact A2|]. intros P. destruct H as (T0 & _).
  assert (forall h, length h = T -> length (convolve p h) = (length p + T - 1)%nat) as LC.
  { intros h Lh. destruct p as [|p0 pt]; [congruence|]. destruct h as [|h0 ht]; [cbn in Lh; lia|].
    unfold convolve. rewrite map_length, seq_length. lia. }
  split; apply (nth_ext_list 0); try (rewrite LC by assumption; lia).
  - intros n _. rewrite A1, nth_convolve. reflexivity.
  - intros n _. rewrite A2, nth_convolve. reflexivity.
Qed.

(** ** Any number of workers *)
Theorem bsdm_parallel p phi theta hr T jobs lo lock_of deal sched lo1 de1 sc1 : hrir_set hr T -> (2 <= jobs)%Z ->
  dealt deal (zipped p phi theta) -> (forall w, lock_of w = lo) ->
  (forall m, bsdm_machine p phi theta hr (length p + T - 1) lock_of deal = Ok m -> finished (steps m sched)) ->
  render_bsdm p phi theta hr jobs lock_of deal sched = render_bsdm p phi theta hr 1 lo1 de1 sc1.
Proof.
  intros H J D L F. destruct (sequential_raw p phi theta hr T lo1 de1 sc1 H) as (l & r & E & L1 & L2 & M1 & M2).
  rewrite E. pose proof H as (T1 & _ & _ & _ & _ & HT & _).
  unfold render_bsdm. rewrite HT, np_zeros_ok by exact T1. cbn [bind].
  destruct (Z.eqb_spec jobs 1); [lia|]. destruct (Z.ltb_spec jobs 1); [lia|].
  rewrite repeat_length. set (N := (length p + T - 1)%nat) in *.
  rewrite (bsdm_machine_ok p phi theta hr T N) in * by (assumption || (unfold N; lia)).
  cbn [bind]. specialize (F _ eq_refl). set (m := bsdm_start p phi theta hr N lock_of deal) in *.
  assert (length (cells m) = (2 * N)%nat) as LM by (unfold m, bsdm_start, start; cbn [cells]; apply repeat_length).
  assert (forall j e, (j < N)%nat -> (e < 2)%nat -> nth (2 * j + e) (cells (steps m sched)) 0 =
    rsum (zipped p phi theta) (fun i => contribution (if (e =? 0)%nat then resp_l hr else resp_r hr) i (nth i (combine p (combine phi theta)) d0) j)) as G.
  { intros j e Hj He. rewrite (guarded_finished lo) by (try apply bsdm_guarded; auto; lia).
    unfold m. rewrite bsdm_total by assumption. unfold bsdm_start, start. cbn [cells]. rewrite nth_repeat. lra. }
  do 2 f_equal; apply (nth_ext_list 0); unfold column2; rewrite map_length, seq_length; try lia.
  - intros j Hj. rewrite nth_map_seq by exact Hj. rewrite G by lia. symmetry. apply M1.
  - intros j Hj. rewrite nth_map_seq by exact Hj. rewrite G by lia. symmetry. apply M2.
Qed.
Theorem bsdm_no_deadlock p phi theta hr T n lo lock_of deal m sched : hrir_set hr T -> (length p + T <= S n)%nat ->
  dealt deal (zipped p phi theta) -> (forall w, lock_of w = lo) ->
  bsdm_machine p phi theta hr n lock_of deal = Ok m ->
  exists rest, finished (steps m (sched ++ rest)).
Proof.
  intros H B D L E. rewrite (bsdm_machine_ok p phi theta hr T n) in E by assumption. injection E as <-.
  pose proof (bsdm_guarded p phi theta hr n lo lock_of deal D L) as G.
  destruct (guarded_steps lo sched _ G) as (G' & _).
  destruct (guarded_can_finish lo _ _ (Nat.le_refl _) G') as [rest F]. exists rest. rewrite steps_app. exact F.
Qed.
Lemma closest_grid hr a z : h_azi hr = [] -> nearest_hrirs hr a z = Err ValueError.
Proof. intros E. unfold nearest_hrirs, nearest_idx. rewrite E. reflexivity. Qed.
Theorem bsdm_empty_grid p phi theta hr jobs lo de sc : h_azi hr = [] -> (1 <= h_taps hr)%nat -> (1 <= zipped p phi theta)%nat ->
  render_bsdm p phi theta hr jobs lo de sc = Err ValueError.
Proof.
  intros E T Z. unfold render_bsdm. rewrite np_zeros_ok by exact T. cbn [bind]. unfold zipped in Z.
  destruct p as [|p0 p]; [cbn in Z; lia|]. destruct phi as [|f0 phi]; [cbn in Z; lia|].
  destruct theta as [|t0 theta]; [cbn in Z; lia|].
  unfold bsdm_machine. cbn [combine length seq mapM bsdm_loop fst snd]. unfold bsdm_task. cbn [fst snd].
  rewrite closest_grid by exact E. cbn [bind]. destruct (jobs =? 1)%Z; [reflexivity|]. destruct (jobs <? 1)%Z; reflexivity.
Qed.
