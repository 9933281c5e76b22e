(** MUSIC finds the sources and nothing else. *)
From Verif Require Import Base BaseFacts M_utils M_sph0 M_sph M_parsa S_sph S_grids S_parsa S_eig S_music P_sph5 P_sph7 P_sph8 P_sph9 P_sph10 P_parsa2 P_parsa3 P_parsa4 P_svd2 P_eig1.
Open Scope R_scope.

(** ** functions band-limited to order N *)
Definition span (N : nat) (f : V3 -> R) : Prop :=
  exists c : nat -> Z -> R, forall v, dot3 v v = 1 -> f v = rsum (N + 1) (fun n => zs n (fun m => c n m * Yz n m v)).
Lemma span_ext N f g : (forall v, dot3 v v = 1 -> f v = g v) -> span N f -> span N g.
Proof. intros E (c & H). exists c. intros v U. rewrite <- E by exact U. apply H, U. Qed.
Lemma span_plus N f g : span N f -> span N g -> span N (fun v => f v + g v).
Proof.
  intros (c & H) (d & K). exists (fun n m => c n m + d n m). intros v U. rewrite H, K by exact U. rewrite <- rsum_plus. apply rsum_ext. intros n Hn. rewrite <- zs_plus. apply zs_ext. intros. ring.
Qed.
Lemma span_scal N a f : span N f -> span N (fun v => a * f v).
Proof. intros (c & H). exists (fun n m => a * c n m). intros v U. rewrite H by exact U. rewrite <- rsum_scal. apply rsum_ext. intros n Hn. rewrite <- zs_scal. apply zs_ext. intros. ring. Qed.
Lemma span_0 N : span N (fun _ => 0).
Proof. exists (fun _ _ => 0). intros v U. symmetry. apply rsum_0. intros n Hn. apply zs_0. intros. ring. Qed.
Lemma span_rsum N k (F : nat -> V3 -> R) : (forall i, (i < k)%nat -> span N (F i)) -> span N (fun v => rsum k (fun i => F i v)).
Proof.
  induction k as [|k IH]; intros H; [apply span_0|]. cbn [rsum]. apply span_plus; [apply IH; intros; apply H; lia|apply H; lia].
Qed.
Lemma span_zs N l (F : Z -> V3 -> R) : (forall m, (Z.abs m <= Z.of_nat l)%Z -> span N (F m)) -> span N (fun v => zs l (fun m => F m v)).
Proof. intros H. unfold zs. apply (span_rsum N (2 * l + 1) (fun i v => F (Z.of_nat i - Z.of_nat l)%Z v)). intros i Hi. apply H. lia. Qed.
Lemma span_Y N n m : (n <= N)%nat -> (Z.abs m <= Z.of_nat n)%Z -> span N (Yz n m).
Proof.
  intros Hn Hm. exists (fun n' m' => kd n m n' m'). intros v U. rewrite (rsum_single (N + 1) n).
  - rewrite (zs_ext n _ (fun m' => zdelta m' m * Yz n m' v)); [rewrite zs_delta by exact Hm; reflexivity|]. intros m' _. unfold kd. rewrite Nat.eqb_refl. unfold zdelta. rewrite Z.eqb_sym. reflexivity.
  - lia.
  - intros n' Hn' NE. apply zs_0. intros m' _. unfold kd. rewrite (proj2 (Nat.eqb_neq n n')) by auto. ring.
Qed.
Lemma span_mul N w f : span N f -> span (S N) (fun v => dot3 v w * f v).
Proof.
  intros (c & H). apply (span_ext (S N) (fun v => rsum (N + 1) (fun n => zs n (fun m => c n m * (zs (S n) (fun m' => Cw w n m' m * Yz (S n) m' v) + low w n m v))))).
  - intros v U. rewrite H by exact U. rewrite <- rsum_scal. apply rsum_ext. intros n Hn. rewrite <- zs_scal. apply zs_ext. intros m Hm. rewrite <- mulw by assumption. ring.
  - apply span_rsum. intros n Hn. apply (span_zs (S N) n (fun m v => c n m * (zs (S n) (fun m' => Cw w n m' m * Yz (S n) m' v) + low w n m v))). intros m Hm. apply span_scal. apply span_plus.
    + apply (span_zs (S N) (S n) (fun m' v => Cw w n m' m * Yz (S n) m' v)). intros m' Hm'. apply span_scal, span_Y; [lia|exact Hm'].
    + destruct n as [|k]; unfold low; [apply span_0|]. apply (span_zs (S N) k (fun c0 v => Cw w k m c0 * Yz k c0 v)). intros c0 Hc. apply span_scal, span_Y; [lia|exact Hc].
Qed.
Lemma span_mono N M f : (N <= M)%nat -> span N f -> span M f.
Proof.
  intros L (c & H). apply (span_ext M (fun v => rsum (N + 1) (fun n => zs n (fun m => c n m * Yz n m v)))); [intros v U; symmetry; apply H, U|].
  apply span_rsum. intros n Hn. apply (span_zs M n (fun m v => c n m * Yz n m v)). intros m Hm. apply span_scal, span_Y; [lia|exact Hm].
Qed.
Lemma span_one : span 0 (fun _ => 1).
Proof.
  apply (span_ext 0 (fun v => sqrt (4 * PI) * Yz 0 0 v)); [|apply span_scal, span_Y; lia]. intros v _. rewrite Yz00. apply Rinv_r. apply Rgt_not_eq, sqrt_lt_R0. pose proof PI_RGT_0. lra.
Qed.
Definition sub3 (u v : V3) : V3 := (vx u - vx v, vy u - vy v, vz u - vz v).
Lemma dot_one u v : dot3 u u = 1 -> dot3 v v = 1 -> dot3 v u = 1 -> v = u.
Proof.
  destruct u as [[a b] c], v as [[x y] z]. unfold dot3, vx, vy, vz. cbn [fst snd]. intros A B D.
  assert (E : (x - a) ^ 2 + (y - b) ^ 2 + (z - c) ^ 2 = 0) by nra. pose proof (pow2_ge_0 (x - a)). pose proof (pow2_ge_0 (y - b)). pose proof (pow2_ge_0 (z - c)).
  assert (x = a) by (apply Rminus_diag_uniq, Rsqr_0_uniq; rewrite Rsqr_pow2; lra). assert (y = b) by (apply Rminus_diag_uniq, Rsqr_0_uniq; rewrite Rsqr_pow2; lra). assert (z = c) by (apply Rminus_diag_uniq, Rsqr_0_uniq; rewrite Rsqr_pow2; lra). congruence.
Qed.
Lemma cross_id d e : dot3 (sub3 (scal3 (dot3 d d) e) (scal3 (dot3 e d) d)) (sub3 (scal3 (dot3 d d) e) (scal3 (dot3 e d) d)) = dot3 d d * (dot3 d d * dot3 e e - dot3 e d * dot3 e d).
Proof. destruct d as [[? ?] ?], e as [[? ?] ?]. unfold sub3, scal3, dot3, vx, vy, vz. cbn [fst snd]. ring. Qed.
(** a plane through two points of the sphere that misses a third *)
Lemma plane u1 u2 v : dot3 u1 u1 = 1 -> dot3 u2 u2 = 1 -> dot3 v v = 1 -> v <> u1 -> v <> u2 ->
  exists b t, dot3 u1 b = t /\ dot3 u2 b = t /\ dot3 v b <> t.
Proof.
  intros U1 U2 V N1 N2. set (a := dot3 u1 u2). set (p := dot3 v u1). set (q := dot3 v u2).
  assert (P1 : p <> 1) by (intros E; apply N1, dot_one; assumption). assert (Q1 : q <> 1) by (intros E; apply N2, dot_one; assumption).
  assert (HP : p <= 1) by (unfold p; destruct u1 as [[x1 y1] z1], v as [[x3 y3] z3]; unfold dot3, vx, vy, vz in *; cbn [fst snd] in *; pose proof (pow2_ge_0 (x3 - x1)); pose proof (pow2_ge_0 (y3 - y1)); pose proof (pow2_ge_0 (z3 - z1)); nra).
  assert (HQ : q <= 1) by (unfold q; destruct u2 as [[x1 y1] z1], v as [[x3 y3] z3]; unfold dot3, vx, vy, vz in *; cbn [fst snd] in *; pose proof (pow2_ge_0 (x3 - x1)); pose proof (pow2_ge_0 (y3 - y1)); pose proof (pow2_ge_0 (z3 - z1)); nra).
  destruct (Req_dec a 1) as [A|A].
  - exists u1, 1. split; [exact U1|]. split; [unfold a in A; rewrite <- A; destruct u1 as [[? ?] ?], u2 as [[? ?] ?]; unfold dot3; ring|exact P1].
  - assert (HA : a <= 1) by (unfold a; destruct u1 as [[x1 y1] z1], u2 as [[x3 y3] z3]; unfold dot3, vx, vy, vz in *; cbn [fst snd] in *; pose proof (pow2_ge_0 (x3 - x1)); pose proof (pow2_ge_0 (y3 - y1)); pose proof (pow2_ge_0 (z3 - z1)); nra).
    set (d := sub3 u2 u1). set (e := sub3 v u1). set (dd := dot3 d d). set (ed := dot3 e d).
    exists (sub3 (scal3 dd e) (scal3 ed d)), (dot3 u1 (sub3 (scal3 dd e) (scal3 ed d))). split; [reflexivity|].
    assert (DD : dd = 2 - 2 * a) by (unfold dd, d, a; destruct u1 as [[x1 y1] z1], u2 as [[x2 y2] z2]; unfold sub3, dot3, vx, vy, vz in *; cbn [fst snd] in *; nra).
    assert (ED : ed = q - p - a + 1) by (unfold ed, e, d, p, q, a; destruct u1 as [[x1 y1] z1], u2 as [[x2 y2] z2], v as [[x3 y3] z3]; unfold sub3, dot3, vx, vy, vz in *; cbn [fst snd] in *; nra).
    assert (EE : dot3 e e = 2 - 2 * p) by (unfold e, p; destruct u1 as [[x1 y1] z1], v as [[x3 y3] z3]; unfold sub3, dot3, vx, vy, vz in *; cbn [fst snd] in *; nra).
    split.
    + assert (X : dot3 u2 (sub3 (scal3 dd e) (scal3 ed d)) - dot3 u1 (sub3 (scal3 dd e) (scal3 ed d)) = dd * ed - ed * dd); [|lra].
      unfold ed at 3, dd at 4. unfold d, e. destruct u1 as [[x1 y1] z1], u2 as [[x2 y2] z2], v as [[x3 y3] z3]. unfold sub3, scal3, dot3, vx, vy, vz. cbn [fst snd]. ring.
    + assert (X : dot3 v (sub3 (scal3 dd e) (scal3 ed d)) - dot3 u1 (sub3 (scal3 dd e) (scal3 ed d)) = dd * dot3 e e - ed * ed).
      { unfold ed at 3. unfold d, e. destruct u1 as [[x1 y1] z1], u2 as [[x2 y2] z2], v as [[x3 y3] z3]. unfold sub3, scal3, dot3, vx, vy, vz. cbn [fst snd]. ring. }
      set (b := sub3 (scal3 dd e) (scal3 ed d)) in *. intros F. rewrite F in X. rewrite DD, EE, ED in X.
      assert (BB : dot3 b b = dd * (dd * dot3 e e - ed * ed)).
      { exact (cross_id d e). }
      rewrite EE, DD, ED in BB. replace ((2 - 2 * a) * (2 - 2 * p) - (q - p - a + 1) * (q - p - a + 1)) with 0 in BB by lra. rewrite Rmult_0_r in BB.
      assert (B0 : dot3 u1 b = 0).
      { destruct b as [[b1 b2] b3]. unfold dot3, vx, vy, vz in BB |- *. cbn [fst snd] in BB |- *. pose proof (Rle_0_sqr b1). pose proof (Rle_0_sqr b2). pose proof (Rle_0_sqr b3). unfold Rsqr in *.
        assert (b1 = 0) by (apply Rsqr_0_uniq; unfold Rsqr; lra). assert (b2 = 0) by (apply Rsqr_0_uniq; unfold Rsqr; lra). assert (b3 = 0) by (apply Rsqr_0_uniq; unfold Rsqr; lra). subst. ring. }
      assert (B1 : dot3 u1 b = dd * (p - 1) - ed * (a - 1)).
      { unfold b, p, a, d, e. rewrite <- U1. generalize dd, ed. intros. destruct u1 as [[x1 y1] z1], u2 as [[x2 y2] z2], v as [[x3 y3] z3]. unfold sub3, scal3, dot3, vx, vy, vz. cbn [fst snd]. ring. }
      rewrite B0, DD, ED in B1. assert (C1 : (1 - a) * (q + p - a - 1) = 0) by nra. apply Rmult_integral in C1. destruct C1 as [C1|C1]; [lra|].
      assert (C2 : (1 - p) * (p - a) = 0). { replace (q - p - a + 1) with (2 - 2 * p) in X by lra. nra. }
      apply Rmult_integral in C2. destruct C2 as [C2|C2]; [lra|]. apply Q1. lra.
Qed.
(** up to 2N directions can be told from any other by a function of order N *)
Lemma separating N : forall us v, (length us <= 2 * N)%nat -> (forall u, In u us -> dot3 u u = 1) -> dot3 v v = 1 -> ~ In v us ->
  exists f, span N f /\ (forall u, In u us -> f u = 0) /\ f v <> 0.
Proof.
  induction N as [|N IH]; intros us v L U V NI.
  - destruct us; [|cbn [length] in L; lia]. exists (fun _ => 1). split; [exact span_one|]. split; [intros u []|lra].
  - assert (G : forall u1 u2 us', (length us' <= 2 * N)%nat -> (forall u, In u (u1 :: u2 :: us') -> dot3 u u = 1) -> ~ In v (u1 :: u2 :: us') -> exists f, span (S N) f /\ (forall u, In u (u1 :: u2 :: us') -> f u = 0) /\ f v <> 0).
    { intros u1 u2 us' L' U' N'. destruct (IH us' v L' (fun u I => U' u (or_intror (or_intror I))) V (fun I => N' (or_intror (or_intror I)))) as (f & F1 & F2 & F3).
      destruct (plane u1 u2 v (U' u1 (or_introl eq_refl)) (U' u2 (or_intror (or_introl eq_refl))) V) as (b & t & P1 & P2 & P3); [intros E; apply N'; left; symmetry; exact E|intros E; apply N'; right; left; symmetry; exact E|].
      exists (fun x => dot3 x b * f x + - t * f x). split; [apply span_plus; [apply span_mul, F1|apply span_scal, (span_mono N); [lia|exact F1]]|]. split.
      - intros u [<-|[<-|I]]; [rewrite P1; ring|rewrite P2; ring|rewrite (F2 u I); ring].
      - replace (dot3 v b * f v + - t * f v) with ((dot3 v b - t) * f v) by ring. apply Rmult_integral_contrapositive_currified; [lra|exact F3]. }
    destruct us as [|u1 [|u2 us']].
    + exists (fun _ => 1). split; [apply (span_mono 0); [lia|exact span_one]|]. split; [intros u []|lra].
    + destruct (G u1 u1 [] ltac:(cbn [length]; lia)) as (f & F1 & F2 & F3); [intros u [<-|[<-|[]]]; apply U; left; reflexivity|intros [E|[E|[]]]; apply NI; left; exact E|].
      exists f. split; [exact F1|]. split; [intros u [<-|[]]; apply F2; left; reflexivity|exact F3].
    + apply (G u1 u2 us'); [cbn [length] in L; lia|exact U|exact NI].
Qed.

(** ** rows of the steering matrix *)
(** a vanishing combination of rows is a vanishing combination of values *)
Lemma row_combination N azi zen Y azj zej Yj k (x : nat -> R) g a f : length zen = length azi -> length zej = length azj -> zeniths zen -> zeniths zej ->
  sh_matrix N azi zen = Ok Y -> sh_matrix N azj zej = Ok Yj -> (k <= length azj)%nat -> (g < length azi)%nat \/ a = 0 -> span N f ->
  (forall j, (j < (N + 1) ^ 2)%nat -> a * ent Y g j = rsum k (fun s => x s * ent Yj s j)) ->
  a * f (dirv azi zen g) = rsum k (fun s => x s * f (dirv azj zej s)).
Proof.
  intros HL HLj Z Zj EY EYj Hk Hg (c & HC) H.
  destruct (sh_matrix_ok N azi zen HL) as (Y' & E' & _ & _ & HY). rewrite EY in E'. injection E' as <-.
  destruct (sh_matrix_ok N azj zej HLj) as (Y' & E' & _ & _ & HYj). rewrite EYj in E'. injection E' as <-.
  assert (VA : forall az ze YY, length ze = length az -> zeniths ze -> (forall i n k, (i < length az)%nat -> (n <= N)%nat -> (k < 2 * n + 1)%nat -> ent YY i (n * n + k) = sh_real n (Z.of_nat k - Z.of_nat n) (nth i az 0) (nth i ze 0)) ->
    forall i, (i < length az)%nat -> f (dirv az ze i) = rsum (N + 1) (fun n => rsum (2 * n + 1) (fun q => c n (Z.of_nat q - Z.of_nat n)%Z * ent YY i (n * n + q)))).
  { intros az ze YY L ZZ HH i Hi. unfold dirv. rewrite HC by apply unit_dir. apply rsum_ext. intros n Hn. unfold zs. apply rsum_ext. intros q Hq. rewrite HH by (try assumption; lia). rewrite sh_real_Yz; [reflexivity|]. apply zeniths_nth; [exact ZZ|congruence]. }
  assert (LH : a * f (dirv azi zen g) = rsum (N + 1) (fun n => rsum (2 * n + 1) (fun q => c n (Z.of_nat q - Z.of_nat n)%Z * (a * ent Y g (n * n + q))))).
  { destruct Hg as [Hg| ->].
    - rewrite (VA azi zen Y HL Z HY g Hg). rewrite <- rsum_scal. apply rsum_ext. intros n Hn. rewrite <- rsum_scal. apply rsum_ext. intros. ring.
    - rewrite Rmult_0_l. symmetry. apply rsum_0. intros n Hn. apply rsum_0. intros. ring. }
  rewrite LH. rewrite (rsum_ext k _ (fun s => rsum (N + 1) (fun n => rsum (2 * n + 1) (fun q => c n (Z.of_nat q - Z.of_nat n)%Z * (x s * ent Yj s (n * n + q)))))).
  - rewrite rsum_swap. apply rsum_ext. intros n Hn. rewrite rsum_swap. apply rsum_ext. intros q Hq. rewrite rsum_scal. f_equal. apply H. rewrite sq2. nia.
  - intros s Hs. rewrite (VA azj zej Yj HLj Zj HYj s) by lia. rewrite <- rsum_scal. apply rsum_ext. intros n Hn. rewrite <- rsum_scal. apply rsum_ext. intros. ring.
Qed.
(** the other directions *)
Definition others (azi zen : list R) (s : nat) : list V3 := map (dirv azi zen) (filter (fun t => negb (Nat.eqb t s)) (seq 0 (length azi))).
Lemma filter_len s n a : (a <= s < a + n)%nat -> length (filter (fun t => negb (Nat.eqb t s)) (seq a n)) = (n - 1)%nat.
Proof.
  revert a. induction n as [|n IH]; intros a H; [lia|]. cbn [seq filter]. destruct (Nat.eqb_spec a s) as [->|NE]; cbn [negb].
  - assert (G : forall m b, (s < b)%nat -> length (filter (fun t => negb (Nat.eqb t s)) (seq b m)) = m).
    { induction m as [|m IHm]; intros b Hb; [reflexivity|]. cbn [seq filter]. rewrite (proj2 (Nat.eqb_neq b s)) by lia. cbn [negb length]. rewrite IHm by lia. reflexivity. }
    rewrite G by lia. lia.
  - cbn [length]. rewrite IH by lia. lia.
Qed.
Lemma others_spec azi zen s u : In u (others azi zen s) <-> exists t, (t < length azi)%nat /\ t <> s /\ dirv azi zen t = u.
Proof.
  unfold others. rewrite in_map_iff. split.
  - intros (t & E & I). apply filter_In in I. destruct I as [I N]. apply in_seq in I. apply Bool.negb_true_iff, Nat.eqb_neq in N. exists t. split; [lia|auto].
  - intros (t & Ht & N & E). exists t. split; [exact E|]. apply filter_In. split; [apply in_seq; lia|apply Bool.negb_true_iff, Nat.eqb_neq, N].
Qed.
(** up to 2 N + 1 distinct directions have independent harmonics of order N *)
Theorem steering_independent N azi zen Y : length zen = length azi -> zeniths zen -> sh_matrix N azi zen = Ok Y -> distinct azi zen -> (length azi <= 2 * N + 1)%nat ->
  independent (length azi) ((N + 1) ^ 2) (ent Y).
Proof.
  intros HL Z EY D L x H s Hs.
  destruct (separating N (others azi zen s) (dirv azi zen s)) as (f & SP & F0 & FN).
  { unfold others. rewrite map_length, filter_len by lia. lia. }
  { intros u I. apply others_spec in I. destruct I as (q & _ & _ & <-). apply unit_dir. }
  { apply unit_dir. }
  { intros E. apply others_spec in E. destruct E as (t & Ht & NE & E). apply NE. apply D; assumption. }
  pose proof (row_combination N azi zen Y azi zen Y (length azi) x s 0 f HL HL Z Z EY EY (le_n _) (or_intror eq_refl) SP) as Q.
  rewrite Rmult_0_l in Q. rewrite (rsum_single (length azi) s) in Q by (try exact Hs; intros t Ht NE; rewrite F0 by (apply others_spec; exists t; auto); ring).
  assert (Q' : 0 = x s * f (dirv azi zen s)). { apply Q. intros j Hj. rewrite Rmult_0_l. symmetry. apply H. exact Hj. }
  symmetry in Q'. apply Rmult_integral in Q'. destruct Q' as [Q'|Q']; [exact Q'|contradiction].
Qed.
(** a direction whose harmonics are a combination of those of up to 2 N directions is one of them *)
Theorem steering_in_span N azi zen Y sa sz Ys (x : nat -> R) g : length zen = length azi -> length sz = length sa -> zeniths zen -> zeniths sz ->
  sh_matrix N azi zen = Ok Y -> sh_matrix N sa sz = Ok Ys -> (length sa <= 2 * N)%nat -> (g < length azi)%nat ->
  (forall j, (j < (N + 1) ^ 2)%nat -> ent Y g j = rsum (length sa) (fun s => x s * ent Ys s j)) -> exists s, (s < length sa)%nat /\ dirv azi zen g = dirv sa sz s.
Proof.
  intros HL HS Z Zs EY ES L Hg H. set (us := map (dirv sa sz) (seq 0 (length sa))).
  destruct (Classical_Prop.classic (In (dirv azi zen g) us)) as [I|NI].
  { unfold us in I. apply in_map_iff in I. destruct I as (t & E & I). apply in_seq in I. exists t. split; [lia|auto]. }
  exfalso. destruct (separating N us (dirv azi zen g)) as (f & SP & F0 & FN).
  { unfold us. rewrite map_length, seq_length. exact L. }
  { intros u I. unfold us in I. apply in_map_iff in I. destruct I as (t & <- & _). apply unit_dir. }
  { apply unit_dir. }
  { exact NI. }
  pose proof (row_combination N azi zen Y sa sz Ys (length sa) x g 1 _ HL HS Z Zs EY ES (le_n _) (or_introl Hg) SP ltac:(intros j Hj; rewrite Rmult_1_l; apply H; exact Hj)) as Q.
  apply FN. rewrite Rmult_1_l in Q. rewrite Q. apply rsum_0. intros s Hs. rewrite F0; [ring|]. unfold us. apply in_map_iff. exists s. split; [reflexivity|apply in_seq; lia].
Qed.

(** ** more columns than rows *)
Lemma kernel m n (A : fm) : (m < n)%nat -> exists x : nat -> R, (exists j, (j < n)%nat /\ x j <> 0) /\ forall i, (i < m)%nat -> rsum n (fun j => A i j * x j) = 0.
Proof.
  intros L. destruct (svd_exists_f m n A) as (U & sv & V & OU & [O1 O2] & LS & _ & E). exists (fun j => V (n - 1)%nat j). split.
  - destruct (Classical_Prop.classic (exists j, (j < n)%nat /\ V (n - 1)%nat j <> 0)) as [X|X]; [exact X|exfalso].
    assert (Q : rsum n (fun k => V (n - 1)%nat k * V (n - 1)%nat k) = 0). { apply rsum_0. intros j Hj. destruct (Req_dec (V (n - 1)%nat j) 0) as [->|NE]; [ring|]. exfalso. apply X. exists j. auto. }
    rewrite O2, delta_same in Q by lia. lra.
  - intros i Hi. rewrite (rsum_ext n _ (fun j => rsum (length sv) (fun k => U i k * nth k sv 0 * (V k j * V (n - 1)%nat j)))) by (intros j Hj; rewrite E by assumption; rewrite <- rsum_scal_r; apply rsum_ext; intros; ring).
    rewrite rsum_swap. apply rsum_0. intros k Hk. rewrite rsum_scal, O2 by lia. unfold delta. rewrite (proj2 (Nat.eqb_neq k (n - 1))) by lia. ring.
Qed.

(** ** eigenvectors of a covariance of sources in noise *)
Section Sources.
Variables (cov : mat) (w : list R) (v : mat) (ns : nat) (p : nat -> R) (Ys : nat -> nat -> R) (sg : R).
Let n := nr cov.
Hypothesis (HE : is_eigh cov w v) (PP : forall s, (s < ns)%nat -> 0 < p s) (IND : independent ns n Ys) (NS : (ns <= n)%nat).
Hypothesis HM : forall i j, (i < n)%nat -> (j < n)%nat -> ent cov i j = sg * delta i j + rsum ns (fun s => p s * (Ys s i * Ys s j)).
Let proj (s k : nat) : R := rsum n (fun j => Ys s j * ent v j k).
Lemma eig_vec k i : (k < n)%nat -> (i < n)%nat -> (nth k w 0 - sg) * ent v i k = rsum ns (fun s => p s * proj s k * Ys s i).
Proof.
  intros Hk Hi. destruct HE as (_ & _ & _ & (_ & _ & O1 & O2) & E). fold n in O1, O2, E.
  assert (X : rsum n (fun j => ent cov i j * ent v j k) = nth k w 0 * ent v i k).
  { rewrite (rsum_ext n _ (fun j => rsum n (fun q => ent v i q * nth q w 0 * (ent v j k * ent v j q)))) by (intros j Hj; rewrite E by assumption; rewrite <- rsum_scal_r; apply rsum_ext; intros; ring).
    rewrite rsum_swap. rewrite (rsum_ext n _ (fun q => delta k q * (ent v i q * nth q w 0))) by (intros q Hq; rewrite rsum_scal, O1 by assumption; ring). rewrite (rsum_delta_l n k (fun q => ent v i q * nth q w 0) Hk). ring. }
  assert (X2 : rsum n (fun j => ent cov i j * ent v j k) = sg * ent v i k + rsum ns (fun s => p s * proj s k * Ys s i)).
  { rewrite (rsum_ext n _ (fun j => delta i j * (sg * ent v j k) + rsum ns (fun s => p s * Ys s i * (Ys s j * ent v j k)))).
    - rewrite rsum_plus, (rsum_delta_l n i (fun j => sg * ent v j k) Hi). f_equal. rewrite rsum_swap. apply rsum_ext. intros s Hs. rewrite rsum_scal. unfold proj. ring.
    - intros j Hj. rewrite HM by assumption. rewrite Rmult_plus_distr_r, <- rsum_scal_r. f_equal; [ring|]. apply rsum_ext. intros. ring. }
  rewrite X2 in X. lra.
Qed.
Lemma eig_excess k : (k < n)%nat -> nth k w 0 - sg = rsum ns (fun s => p s * proj s k ^ 2).
Proof.
  intros Hk. destruct HE as (_ & _ & _ & (_ & _ & O1 & O2) & E). fold n in O1, O2, E.
  transitivity (rsum n (fun i => ((nth k w 0 - sg) * ent v i k) * ent v i k)).
  - rewrite (rsum_ext n _ (fun i => (nth k w 0 - sg) * (ent v i k * ent v i k))) by (intros; ring). rewrite rsum_scal, O1, delta_same by assumption. ring.
  - rewrite (rsum_ext n _ (fun i => rsum ns (fun s => p s * proj s k * (Ys s i * ent v i k)))) by (intros i Hi; rewrite eig_vec by assumption; rewrite <- rsum_scal_r; apply rsum_ext; intros; ring).
    rewrite rsum_swap. apply rsum_ext. intros s Hs. rewrite rsum_scal. fold (proj s k). ring.
Qed.
Lemma proj_expand s j : (j < n)%nat -> Ys s j = rsum n (fun k => proj s k * ent v j k).
Proof.
  intros Hj. destruct HE as (_ & _ & _ & (_ & _ & O1 & O2) & _). fold n in O1, O2. unfold proj.
  rewrite (rsum_ext n _ (fun k => rsum n (fun i => Ys s i * (ent v j k * ent v i k)))) by (intros; rewrite <- rsum_scal_r; apply rsum_ext; intros; ring).
  rewrite rsum_swap. rewrite (rsum_ext n _ (fun i => delta j i * Ys s i)) by (intros i Hi; rewrite rsum_scal, O2 by assumption; ring). symmetry. apply (rsum_delta_l n j (fun i => Ys s i) Hj).
Qed.
Lemma signal_above k : (n - ns <= k < n)%nat -> sg < nth k w 0.
Proof.
  intros Hk. destruct (Rlt_le_dec sg (nth k w 0)) as [G|G]; [exact G|exfalso]. assert (AS : ascending w) by apply HE. assert (LW : length w = n) by apply HE.
  assert (Z : forall l s, (l <= k)%nat -> (s < ns)%nat -> proj s l = 0).
  { intros l s Hl Hs. assert (Q : rsum ns (fun s => p s * proj s l ^ 2) = 0).
    { apply Rle_antisym; [|apply rsum_nonneg; intros t Ht; apply Rmult_le_pos; [left; apply PP; exact Ht|apply pow2_ge_0]]. rewrite <- eig_excess by lia. assert (nth l w 0 <= nth k w 0) by (apply AS; lia). lra. }
    pose proof (rsum_nonneg_0 ns _ (fun t Ht => Rmult_le_pos _ _ (Rlt_le _ _ (PP t Ht)) (pow2_ge_0 (proj t l))) Q s Hs) as W. cbn beta in W. pose proof (PP s Hs). apply Rmult_integral in W. destruct W as [W|W]; [lra|]. apply Rsqr_0_uniq. rewrite Rsqr_pow2. exact W. }
  destruct (kernel (n - k - 1) ns (fun l s => proj s (k + 1 + l)%nat) ltac:(lia)) as (x & (s0 & Hs0 & NZ) & K). apply NZ. apply (IND x); [|exact Hs0].
  intros j Hj. rewrite (rsum_ext ns _ (fun s => rsum n (fun l => x s * proj s l * ent v j l))) by (intros s Hs; rewrite proj_expand by exact Hj; rewrite <- rsum_scal; apply rsum_ext; intros; ring).
  rewrite rsum_swap. replace n with (k + 1 + (n - k - 1))%nat by lia. rewrite rsum_app.
  rewrite (rsum_0 (k + 1)), (rsum_0 (n - k - 1)).
  - ring.
  - intros l Hl. rewrite rsum_scal_r. rewrite (rsum_ext ns _ (fun s => proj s (k + 1 + l)%nat * x s)) by (intros; ring). rewrite K by exact Hl. ring.
  - intros l Hl. apply rsum_0. intros s Hs. rewrite Z by (try exact Hs; lia). ring.
Qed.
(** what is orthogonal to the noise eigenvectors is a combination of the sources *)
Lemma in_source_span (y : nat -> R) : (forall k, (k < n - ns)%nat -> rsum n (fun j => ent v j k * y j) = 0) ->
  exists x, forall j, (j < n)%nat -> y j = rsum ns (fun s => x s * Ys s j).
Proof.
  intros H. set (c := fun k => rsum n (fun j => ent v j k * y j)). exists (fun s => rsum ns (fun l => c (n - ns + l)%nat * (p s * proj s (n - ns + l) / (nth (n - ns + l) w 0 - sg)))).
  intros j Hj. assert (X : y j = rsum n (fun k => c k * ent v j k)).
  { destruct HE as (_ & _ & _ & (_ & _ & O1 & O2) & _). fold n in O1, O2. unfold c. rewrite (rsum_ext n _ (fun k => rsum n (fun i => y i * (ent v j k * ent v i k)))) by (intros; rewrite <- rsum_scal_r; apply rsum_ext; intros; ring).
    rewrite rsum_swap. rewrite (rsum_ext n _ (fun i => delta j i * y i)) by (intros i Hi; rewrite rsum_scal, O2 by assumption; ring). symmetry. apply (rsum_delta_l n j y Hj). }
  rewrite X. replace (rsum n (fun k => c k * ent v j k)) with (rsum (n - ns + ns) (fun k => c k * ent v j k)) by (f_equal; lia).
  rewrite rsum_app, rsum_0 by (intros k Hk; unfold c; rewrite H by exact Hk; ring). rewrite Rplus_0_l.
  symmetry. transitivity (rsum ns (fun s => rsum ns (fun l => c (n - ns + l)%nat / (nth (n - ns + l) w 0 - sg) * (p s * proj s (n - ns + l) * Ys s j)))).
  { apply rsum_ext. intros s Hs. rewrite <- rsum_scal_r. apply rsum_ext. intros. unfold Rdiv. ring. }
  rewrite rsum_swap. apply rsum_ext. intros l Hl. rewrite rsum_scal, <- eig_vec by lia. pose proof (signal_above (n - ns + l) ltac:(lia)). field. lra.
Qed.
End Sources.
Theorem music_only_sources eigh cov azi zen N P w v (sa sz p : list R) sg Ys : eigh cov = (w, v) -> is_eigh cov w v -> nr cov = ((N + 1) ^ 2)%nat ->
  length zen = length azi -> length sz = length sa -> length p = length sa -> zeniths zen -> zeniths sz -> (forall x, In x p -> 0 < x) -> (1 <= length sa <= 2 * N)%nat -> distinct sa sz ->
  sh_matrix N sa sz = Ok Ys ->
  (forall i j, (i < nr cov)%nat -> (j < nr cov)%nat -> ent cov i j = sg * delta i j + rsum (length sa) (fun s => nth s p 0 * (ent Ys s i * ent Ys s j))) ->
  sh_music eigh cov (Z.of_nat (length sa)) azi zen = Ok P ->
  forall g, (g < length azi)%nat -> (nth g P 0 = 100000000000 <-> exists s, (s < length sa)%nat /\ dirv azi zen g = dirv sa sz s).
Proof.
  intros E HE KN HL HS HP Z Zs PP H1 D ES HM EP g Hg.
  assert (NN : (2 * N + 1 <= (N + 1) ^ 2)%nat) by (rewrite sq2; nia).
  assert (PQ : forall s, (s < length sa)%nat -> 0 < nth s p 0) by (intros s Hs; apply PP, nth_In; congruence).
  destruct (sh_matrix_ok N azi zen HL) as (Y & EY & RY & CY & HY).
  rewrite (music_peak eigh cov (length sa) azi zen N P w v g E HE KN HL EP (proj1 H1) Hg). split.
  - intros H. assert (IND : independent (length sa) (nr cov) (ent Ys)) by (rewrite KN; apply (steering_independent N sa sz Ys HS Zs ES D); lia).
    destruct (in_source_span cov w v (length sa) (fun s => nth s p 0) (ent Ys) sg HE PQ IND ltac:(lia) HM (fun j => ent Y g j)) as (x & HX).
    + intros k Hk. specialize (H k Hk). rewrite (field_steer N azi zen Y) in H by assumption. rewrite <- KN in H. rewrite <- H. apply rsum_ext. intros j Hj. rewrite nth_map_seq by exact Hj. reflexivity.
    + apply (steering_in_span N azi zen Y sa sz Ys x g HL HS Z Zs EY ES ltac:(lia) Hg). intros j Hj. apply HX. rewrite KN. exact Hj.
  - intros (s & Hs & DE) k Hk. rewrite (field_steer N azi zen Y) by assumption. rewrite <- KN.
    destruct (sh_matrix_ok N sa sz HS) as (Y' & E' & _ & _ & HYs). rewrite ES in E'. injection E' as <-.
    assert (ROW : forall j, (j < nr cov)%nat -> ent Y g j = ent Ys s j).
    { intros j Hj. rewrite KN in Hj. destruct (acn_decomp N j Hj) as (n & i & Hn & Hi & ->). rewrite HY, HYs by assumption. rewrite !sh_real_Yz by (apply zeniths_nth; auto; congruence). unfold dirv in DE. rewrite DE. reflexivity. }
    rewrite (rsum_ext _ _ (fun j => ent Ys s j * ent v j k)) by (intros j Hj; rewrite nth_map_seq, ROW by exact Hj; ring).
    destruct HE as (SQ & LW & AS & (RV & CV & O1 & O2) & HA).
    apply (noise_orthogonal (nr cov) (length sa) (ent cov) (fun k => nth k w 0) (ent v) (ent Ys) (fun s => nth s p 0) sg); auto. intros i j Hij. apply AS. lia.
Qed.
